(** A semicolon that is missing can be put in: the parser over tokens then does the same, without the complaint *)
From Verif Require Import Parser ParserSafe TokParser ParserSim DisplayProofs Reformat.
From Coq Require Import ZifyBool.

Local Notation semi := says_semicolon.
Lemma diag_eqv_refl d : diag_eqv d d.
Proof. split; reflexivity. Qed.
Lemma diags_refl ds : Forall2 diag_eqv ds ds.
Proof. induction ds; constructor; [apply diag_eqv_refl|assumption]. Qed.

Lemma self_nil {X} (l y : list X) : l = y ++ l -> y = [].
Proof. intros E. apply (f_equal (@length X)) in E. rewrite app_length in E. destruct y; [reflexivity|cbn [length] in E; lia]. Qed.

Section Insert.
  Context (src : fpath) (incl : list fpath) (rl : position -> list token).

  (** [m] reads tokens from the front and adds diagnostics, when [q] none about missing semicolons *)
  Definition sufx (q : bool) (l : list token) (ds : list diag) (s1 : tstate) : Prop :=
    exists z new, l = z ++ t_toks s1 /\ t_diags s1 = ds ++ new /\ (q = true -> Forall (fun d => ~ semi d) new).
  (** ... and behaves the same if tokens behind the next one to come are changed *)
  Definition extends (D : list diag -> list diag -> Prop) : Prop := forall ds ds' d d', D ds ds' -> diag_eqv d d' -> D (ds ++ [d]) (ds' ++ [d']).
  Definition stab (q : bool) {A} (m : TM A) : Prop := forall D, extends D -> forall x r r' ds ds',
    hd_error r = hd_error r' -> Forall known (x ++ r) -> D ds ds' ->
    match m (mkTS (x ++ r) ds) with
    | TBad => True
    | TOk a s1 => sufx q (x ++ r) ds s1 /\ ((length (t_toks s1) < length r)%nat
        \/ exists y ds1, t_toks s1 = y ++ r /\ m (mkTS (x ++ r') ds') = TOk a (mkTS (y ++ r') ds1) /\ D (t_diags s1) ds1)
    | TErr d s1 => sufx q (x ++ r) ds s1 /\ (q = true -> ~ semi d) /\ ((length (t_toks s1) < length r)%nat
        \/ exists y ds1, t_toks s1 = y ++ r /\ m (mkTS (x ++ r') ds') = TErr d (mkTS (y ++ r') ds1) /\ D (t_diags s1) ds1)
    end.

  Lemma all_extends : extends (fun _ _ => True).
  Proof. intros ds ds' d d' _ _. exact I. Qed.
  Lemma eqv_extends : extends (Forall2 diag_eqv).
  Proof. intros ds ds' d d' H Hd. apply Forall2_app; [exact H|]. constructor; [exact Hd|constructor]. Qed.
  Lemma sufx_refl q l ds : sufx q l ds (mkTS l ds).
  Proof. exists [], []. split; [reflexivity|]. split; [symmetry; apply app_nil_r|]. intros _. constructor. Qed.
  Lemma sufx_trans q l ds s1 s2 : sufx q l ds s1 -> sufx q (t_toks s1) (t_diags s1) s2 -> sufx q l ds s2.
  Proof.
    intros (z & n & E1 & E2 & H1) (z' & n' & E3 & E4 & H2). exists (z ++ z'), (n ++ n'). rewrite <- !app_assoc, <- E3. split; [exact E1|].
    split; [rewrite E4, E2, app_assoc; reflexivity|]. intros Q. apply Forall_app. auto.
  Qed.
  Lemma sufx_known q l ds s1 : sufx q l ds s1 -> Forall known l -> Forall known (t_toks s1).
  Proof. intros (z & n & E & _) H. rewrite E in H. apply Forall_app in H. apply H. Qed.
  Lemma sufx_length q l ds s1 : sufx q l ds s1 -> (length (t_toks s1) <= length l)%nat.
  Proof. intros (z & n & E & _). rewrite E, app_length. lia. Qed.
  Lemma sufx_any q l ds s1 : sufx true l ds s1 -> sufx q l ds s1.
  Proof. intros (z & n & E & E2 & H). exists z, n. auto. Qed.

  Lemma stab_any q {A} (m : TM A) : stab true m -> stab q m.
  Proof.
    intros H D HD x r r' ds ds' Hh Hk Hd. specialize (H D HD x r r' ds ds' Hh Hk Hd). destruct (m (mkTS (x ++ r) ds)); [| |exact I].
    - destruct H as [S H]. split; [apply sufx_any, S|exact H].
    - destruct H as (S & N & H). split; [apply sufx_any, S|]. split; [intros _; exact (N eq_refl)|exact H].
  Qed.
  Lemma stab_ret q {A} (a : A) : stab q (t_ret a).
  Proof. intros D HD x r r' ds ds' Hh Hk Hd. split; [apply sufx_refl|]. right. exists x, ds'. auto. Qed.
  Lemma stab_throw q {A} d : (q = true -> ~ semi d) -> stab q (@t_throw A d).
  Proof. intros N D HD x r r' ds ds' Hh Hk Hd. split; [apply sufx_refl|]. split; [exact N|]. right. exists x, ds'. auto. Qed.
  Lemma stab_bad q {A} : stab q (@t_no_fuel A).
  Proof. intros D HD x r r' ds ds' Hh Hk Hd. exact I. Qed.
  Lemma stab_panic q {A} : stab q (@t_panic A).
  Proof. intros D HD x r r' ds ds' Hh Hk Hd. exact I. Qed.
  Lemma stab_catch q q' {A B} (m : TM A) (k : A -> TM B) (g : diag -> TM B) : stab q m -> (forall a, stab q' (k a)) ->
    (forall d, (q = true -> ~ semi d) -> stab q' (g d)) -> (q' = true -> q = true) -> stab q' (t_catch m k g).
  Proof.
    intros Hm Hk Hg Hq D HD x r r' ds ds' Hh Hn Hd. specialize (Hm D HD x r r' ds ds' Hh Hn Hd). unfold t_catch.
    assert (W : forall s1, sufx q (x ++ r) ds s1 -> sufx q' (x ++ r) ds s1).
    { intros s1 (z & n & E1 & E2 & H). exists z, n. split; [exact E1|]. split; [exact E2|]. intros Q. exact (H (Hq Q)). }
    assert (Z : forall (j : TM B) s1, sufx q (x ++ r) ds s1 -> stab q' j -> (length (t_toks s1) < length r)%nat ->
      match j s1 with
      | TBad => True
      | TOk a s2 => sufx q' (x ++ r) ds s2 /\ (length (t_toks s2) < length r)%nat
      | TErr d s2 => sufx q' (x ++ r) ds s2 /\ (q' = true -> ~ semi d) /\ (length (t_toks s2) < length r)%nat
      end).
    { intros j s1 S Hj L. pose proof (sufx_known _ _ _ _ S Hn) as Hk1. specialize (Hj _ all_extends [] (t_toks s1) (t_toks s1) (t_diags s1) (t_diags s1) eq_refl Hk1 I).
      cbn [app] in Hj. destruct s1 as [l1 ds1]. cbn [t_toks t_diags] in *. destruct (j (mkTS l1 ds1)) as [b s2|d s2|]; [| |exact I].
      - destruct Hj as [S2 _]. pose proof (sufx_length _ _ _ _ S2). split; [exact (sufx_trans _ _ _ _ _ (W _ S) S2)|lia].
      - destruct Hj as (S2 & N & _). pose proof (sufx_length _ _ _ _ S2). split; [exact (sufx_trans _ _ _ _ _ (W _ S) S2)|]. split; [exact N|lia]. }
    assert (Y : forall (j : TM B) s1 y ds1, sufx q (x ++ r) ds s1 -> stab q' j -> t_toks s1 = y ++ r -> D (t_diags s1) ds1 ->
      match j s1 with
      | TBad => True
      | TOk a s2 => sufx q' (x ++ r) ds s2 /\ ((length (t_toks s2) < length r)%nat
          \/ exists y' ds2, t_toks s2 = y' ++ r /\ j (mkTS (y ++ r') ds1) = TOk a (mkTS (y' ++ r') ds2) /\ D (t_diags s2) ds2)
      | TErr d s2 => sufx q' (x ++ r) ds s2 /\ (q' = true -> ~ semi d) /\ ((length (t_toks s2) < length r)%nat
          \/ exists y' ds2, t_toks s2 = y' ++ r /\ j (mkTS (y ++ r') ds1) = TErr d (mkTS (y' ++ r') ds2) /\ D (t_diags s2) ds2)
      end).
    { intros j s1 y ds1 S Hj E Dy. pose proof (sufx_known _ _ _ _ S Hn) as Hk1. rewrite E in Hk1. specialize (Hj D HD y r r' (t_diags s1) ds1 Hh Hk1 Dy).
      destruct s1 as [l1 dd1]. cbn [t_toks t_diags] in *. subst l1. destruct (j (mkTS (y ++ r) dd1)) as [b s2|d s2|]; [| |exact I].
      - destruct Hj as [S2 Hj]. split; [exact (sufx_trans _ _ _ _ _ (W _ S) S2)|exact Hj].
      - destruct Hj as (S2 & Hj). split; [exact (sufx_trans _ _ _ _ _ (W _ S) S2)|exact Hj]. }
    destruct (m (mkTS (x ++ r) ds)) as [a s1|d s1|]; [| |exact I].
    - destruct Hm as (S & [L|(y & ds1 & E1 & E2 & Dy)]).
      + specialize (Z _ _ S (Hk a) L). destruct (k a s1); [| |exact I]; [destruct Z; auto|destruct Z as (? & ? & ?); auto].
      + rewrite E2. exact (Y _ _ _ _ S (Hk a) E1 Dy).
    - destruct Hm as (S & N & [L|(y & ds1 & E1 & E2 & Dy)]).
      + specialize (Z _ _ S (Hg d N) L). destruct (g d s1); [| |exact I]; [destruct Z; auto|destruct Z as (? & ? & ?); auto].
      + rewrite E2. exact (Y _ _ _ _ S (Hg d N) E1 Dy).
  Qed.
  Lemma stab_ext q {A} (m m' : TM A) : (forall s, m s = m' s) -> stab q m' -> stab q m.
  Proof. intros E H D HD x r r' ds ds'. rewrite !E. apply H. exact HD. Qed.
  Lemma stab_bind q {A B} (m : TM A) (k : A -> TM B) : stab q m -> (forall a, stab q (k a)) -> stab q (t_bind m k).
  Proof.
    intros Hm Hk. apply (stab_ext _ _ (t_catch m k (fun d => t_throw d))).
    { intros s. unfold t_bind, t_catch, t_throw. destruct (m s); reflexivity. }
    apply (stab_catch q); [exact Hm|exact Hk| |auto]. intros d N. apply stab_throw, N.
  Qed.
  Lemma stab_push q d : (q = true -> ~ semi d) -> stab q (t_push d).
  Proof.
    intros N D HD x r r' ds ds' Hh Hk Hd. split.
    { exists [], [d]. split; [reflexivity|]. split; [reflexivity|]. intros Q. constructor; [exact (N Q)|constructor]. }
    right. exists x, (ds' ++ [d]). split; [reflexivity|]. split; [reflexivity|]. apply HD; [exact Hd|apply diag_eqv_refl].
  Qed.
  Lemma stab_peek q : stab q t_peek.
  Proof.
    intros D HD x r r' ds ds' Hh Hk Hd. split; [apply sufx_refl|]. right. exists x, ds'. split; [reflexivity|]. split; [|exact Hd].
    unfold t_peek. cbn [t_toks]. destruct x; [cbn [app]; rewrite Hh; reflexivity|reflexivity].
  Qed.
  Lemma stab_next q : stab q t_next.
  Proof.
    intros D HD x r r' ds ds' Hh Hk Hd. unfold t_next. cbn [t_toks t_diags]. destruct x as [|t x]; cbn [app hd_error tl].
    - destruct r as [|t r], r' as [|t' r']; cbn [hd_error] in Hh; try discriminate Hh.
      + split; [apply sufx_refl|]. right. exists [], ds'. auto.
      + split; [exists [t], []; cbn [t_toks t_diags]; rewrite app_nil_r; split; [reflexivity|split; [reflexivity|intros _; constructor]]|]. left. cbn [hd_error tl t_toks length]. lia.
    - split; [exists [t], []; cbn [t_toks t_diags]; rewrite app_nil_r; split; [reflexivity|split; [reflexivity|intros _; constructor]]|]. right. exists x, ds'. auto.
  Qed.

  Create HintDb stab.
  Ltac nosemi := intros _; first [apply semi_expected; discriminate|apply semi_new; discriminate].
  Hint Resolve stab_ret stab_bad stab_panic stab_peek stab_next : stab.
  Ltac st :=
    repeat first
      [ progress intros
      | solve [auto with stab]
      | apply stab_ret
      | apply stab_throw; solve [nosemi|discriminate]
      | apply stab_push; solve [nosemi]
      | match goal with
        | |- stab _ (t_bind _ _) => apply stab_bind
        | |- stab _ (match ?x with _ => _ end) => destruct x eqn:?
        | |- stab _ (if ?x then _ else _) => destruct x eqn:?
        end ].

  Lemma stab_source q : stab q (t_source src).
  Proof. apply stab_ret. Qed.
  Lemma stab_incl q : stab q (t_include_paths incl).
  Proof. apply stab_ret. Qed.
  Lemma stab_cur q : stab q t_cur_pos.
  Proof. apply stab_ret. Qed.
  Lemma stab_last q : stab q t_last_pos.
  Proof. apply stab_ret. Qed.
  Hint Resolve stab_source stab_incl stab_cur stab_last : stab.
  Lemma stab_expect_next q : stab q (t_expect_next src).
  Proof. unfold t_expect_next. st. Qed.
  Lemma stab_peek_expect q : stab q (t_peek_expect src).
  Proof. unfold t_peek_expect. st. Qed.
  Lemma stab_expect k : stab false (t_expect src k).
  Proof. unfold t_expect. st. Qed.
  Lemma stab_skip q : stab q t_skip_tok.
  Proof. unfold t_skip_tok. st. Qed.
  Hint Resolve stab_expect_next stab_peek_expect stab_expect stab_skip : stab.
  Lemma stab_check q sp s p1 p2 c : stab q (t_check_ident src sp s p1 p2 c).
  Proof.
    unfold t_check_ident. apply stab_bind; [apply stab_source|]. intros sr. destruct (check_ident_diag sp s p1 p2 c sr) eqn:E; cbn [t_push_opt]; [|st].
    apply stab_push. intros _. exact (semi_ident _ _ _ _ _ _ _ E).
  Qed.
  Hint Resolve stab_check : stab.
  Lemma stab_label q sp s : stab q (t_check_is_label src sp s).
  Proof. apply stab_check. Qed.
  Lemma stab_prop q sp s : stab q (t_check_is_property_name src sp s).
  Proof. apply stab_check. Qed.
  Lemma stab_node q sp s : stab q (t_check_is_node_name src sp s).
  Proof. unfold t_check_is_node_name. st. Qed.
  Hint Resolve stab_label stab_prop stab_node : stab.
  Lemma stab_path q sp p : stab q (t_check_path src sp p).
  Proof. induction p; cbn [t_check_path]; st. Qed.
  Hint Resolve stab_path : stab.
  Lemma stab_reference q t r : stab q (t_p_reference src t r).
  Proof. unfold t_p_reference. st. Qed.
  Lemma stab_expression q f : forall d, stab q (t_skip_expression f d).
  Proof. induction f; intros d; cbn [t_skip_expression]; st. Qed.
  Hint Resolve stab_reference stab_expression : stab.
  Lemma stab_number q f : stab q (t_number_u32 src f).
  Proof. unfold t_number_u32. st. Qed.
  Lemma stab_memreserve q : stab q (t_memreserve_number src).
  Proof. unfold t_memreserve_number. st. Qed.
  Lemma stab_byte q : stab q (t_byte_string src).
  Proof. unfold t_byte_string. st. Qed.
  Lemma stab_skip_label q : stab q t_skip_optional_label.
  Proof. unfold t_skip_optional_label. st. Qed.
  Hint Resolve stab_number stab_memreserve stab_byte stab_skip_label : stab.
  Lemma stab_cells q f : forall acc, stab q (t_cells_loop src f acc).
  Proof.
    induction f; intros acc; cbn [t_cells_loop]; st. apply (stab_catch true); [st|st| |auto]. intros d N. apply stab_bind; [apply stab_push; intros _; exact (N eq_refl)|st].
  Qed.
  Lemma stab_bytes q f : forall acc, stab q (t_bytes_loop src f acc).
  Proof. induction f; intros acc; cbn [t_bytes_loop]; st. Qed.
  Lemma stab_bits q : stab q (t_bits_prefix src).
  Proof. unfold t_bits_prefix. st. Qed.
  Hint Resolve stab_cells stab_bytes stab_bits : stab.
  Lemma stab_value q f : stab q (t_property_value src f).
  Proof. unfold t_property_value. st. Qed.
  Hint Resolve stab_value : stab.
  Lemma stab_values q f : forall acc, stab q (t_property_values src f acc).
  Proof. induction f; intros acc; cbn [t_property_values]; st. Qed.
  Lemma stab_property_name q : stab q (t_p_property_name src).
  Proof. unfold t_p_property_name. st. Qed.
  Lemma stab_node_name q : stab q (t_p_node_name src).
  Proof. unfold t_p_node_name. st. Qed.
  Lemma stab_omit q o : stab q (t_check_omit src o).
  Proof. unfold t_check_omit. st. Qed.
  Lemma stab_order q b p : stab q (t_check_order src b p).
  Proof. unfold t_check_order. st. Qed.
  Lemma stab_parse_reference q : stab q (t_parse_reference src).
  Proof. unfold t_parse_reference. st. Qed.
  Hint Resolve stab_values stab_property_name stab_node_name stab_omit stab_order stab_parse_reference : stab.
  (** the ways of the function for a semicolon *)
  Lemma semicolon_there t l ds : tk_kind t = Semicolon -> t_expect_semicolon src rl (mkTS (t :: l) ds) = TOk (Some t) (mkTS l ds).
  Proof. intros E. unfold t_expect_semicolon, t_bind at 1, t_peek. cbn [t_toks hd_error]. rewrite E. reflexivity. Qed.
  Notation missing := (t_missing src).
  Lemma semicolon_missing l ds : (forall t, hd_error l = Some t -> known t /\ tk_kind t <> Semicolon) ->
    t_expect_semicolon src rl (mkTS l ds) = TOk None (mkTS l (ds ++ [missing l])).
  Proof.
    intros H. unfold t_expect_semicolon, t_bind at 1, t_peek. cbn [t_toks]. destruct l as [|t l]; [reflexivity|]. destruct (H t eq_refl) as [K N]. cbn [hd_error].
    unfold known in K. destruct (tk_kind t); try (exfalso; apply N; reflexivity); rewrite K; reflexivity.
  Qed.
  Lemma missing_eqv l l' : diag_eqv (missing l) (missing l').
  Proof. split; reflexivity. Qed.
  Lemma missing_semi l : semi (missing l).
  Proof. split; reflexivity. Qed.
  Lemma stab_semicolon : stab false (t_expect_semicolon src rl).
  Proof.
    intros D HD x r r' ds ds' Hh Hk Hd.
    assert (P : hd_error (x ++ r') = hd_error (x ++ r)) by (destruct x; [symmetry; exact Hh|reflexivity]).
    assert (C : (exists t, hd_error (x ++ r) = Some t /\ tk_kind t = Semicolon) \/ (forall t, hd_error (x ++ r) = Some t -> known t /\ tk_kind t <> Semicolon)).
    { destruct (x ++ r) as [|t l]; [right; discriminate|]. destruct (kind_eqb (tk_kind t) Semicolon) eqn:K.
      - left. exists t. split; [reflexivity|]. destruct (tk_kind t); try discriminate K. reflexivity.
      - right. intros t' E. injection E as <-. split; [exact (Forall_inv Hk)|]. intros E. rewrite E in K. discriminate K. }
    destruct C as [(t & E & K)|C].
    - assert (G : forall s, hd_error (t_toks s) = Some t -> t_expect_semicolon src rl s = t_next s).
      { intros [l d] E1. cbn [t_toks] in E1. destruct l as [|t' l]; [discriminate E1|]. injection E1 as ->. exact (semicolon_there t l d K). }
      rewrite (G (mkTS (x ++ r) ds) E), (G (mkTS (x ++ r') ds')) by (rewrite <- E; exact P). exact (stab_next false D HD x r r' ds ds' Hh Hk Hd).
    - rewrite (semicolon_missing _ ds C), (semicolon_missing (x ++ r') ds') by (intros t; rewrite P; apply C).
      split; [exists [], [missing (x ++ r)]; split; [reflexivity|]; split; [reflexivity|discriminate]|]. right. exists x, (ds' ++ [missing (x ++ r')]).
      split; [reflexivity|]. split; [reflexivity|]. apply HD; [exact Hd|apply missing_eqv].
  Qed.
  Hint Resolve stab_semicolon : stab.
  Lemma stab_payload f : forall items nd, stab false (t_payload_loop src rl f items nd).
  Proof. induction f; intros items nd; cbn [t_payload_loop]; st. Qed.
  Hint Resolve stab_payload : stab.
  Lemma stab_node_payload f : stab false (t_node_payload src rl f).
  Proof. unfold t_node_payload. st. Qed.
  Hint Resolve stab_node_payload : stab.
  Lemma stab_primary f : stab false (t_p_primary src incl rl f).
  Proof. unfold t_p_primary. st. Qed.
  Hint Resolve stab_primary : stab.
  Lemma stab_file_loop f : forall acc, stab false (t_file_loop src incl rl f acc).
  Proof. induction f; intros acc; cbn [t_file_loop]; st. Qed.

  (** ** Functions that do not look at the token behind the last one they read *)
  Definition head_is (f : option token) (l : list token) : Prop := match f with Some t => hd_error l = Some t | None => True end.
  (** from a list with the head [f]; when [b], at least one token is read *)
  Definition tight (f : option token) (b : bool) {A} (m : TM A) : Prop := forall x r r' ds ds' a ds1,
    head_is f (x ++ r) -> Forall known (x ++ r) -> Forall2 diag_eqv ds ds' -> m (mkTS (x ++ r) ds) = TOk a (mkTS r ds1) ->
    (b = true -> x <> []) /\ exists ds1', m (mkTS (x ++ r') ds') = TOk a (mkTS r' ds1') /\ Forall2 diag_eqv ds1 ds1'.

  (** a run through a bind, cut into its parts *)
  Lemma bind_cut q q' {A B} (m : TM A) (k : A -> TM B) l ds b s2 : stab q m -> (forall a, stab q' (k a)) -> Forall known l ->
    t_bind m k (mkTS l ds) = TOk b s2 -> exists a z l1 ds1 z2 n1 n2, m (mkTS l ds) = TOk a (mkTS l1 ds1) /\ k a (mkTS l1 ds1) = TOk b s2
      /\ l = z ++ l1 /\ l1 = z2 ++ t_toks s2 /\ Forall known l1 /\ ds1 = ds ++ n1 /\ t_diags s2 = ds1 ++ n2
      /\ (q = true -> Forall (fun d => ~ semi d) n1) /\ (q' = true -> Forall (fun d => ~ semi d) n2).
  Proof.
    intros Hm Hk Hn H. unfold t_bind in H. specialize (Hm _ all_extends [] l l ds ds eq_refl Hn I). cbn [app] in Hm.
    destruct (m (mkTS l ds)) as [a [l1 ds1]|d s1|] eqn:E; [|discriminate H|discriminate H]. destruct Hm as [S _].
    pose proof (sufx_known _ _ _ _ S Hn) as Hn1. destruct S as (z & n1 & E1 & E2 & Q1). cbn [t_toks t_diags] in *.
    specialize (Hk a _ all_extends [] l1 l1 ds1 ds1 eq_refl Hn1 I). cbn [app] in Hk. rewrite H in Hk. destruct Hk as [(z2 & n2 & E3 & E4 & Q2) _].
    exists a, z, l1, ds1, z2, n1, n2. auto 12.
  Qed.
  Lemma stab_run q {A} (m : TM A) z l l' ds ds' a ds1 : stab q m -> hd_error l = hd_error l' -> Forall known (z ++ l) -> Forall2 diag_eqv ds ds' ->
    m (mkTS (z ++ l) ds) = TOk a (mkTS l ds1) -> exists ds1', m (mkTS (z ++ l') ds') = TOk a (mkTS l' ds1') /\ Forall2 diag_eqv ds1 ds1'.
  Proof.
    intros Hm Hh Hn Hd E. specialize (Hm _ eqv_extends z l l' ds ds' Hh Hn Hd). rewrite E in Hm. cbn [t_toks t_diags] in Hm. destruct Hm as (_ & [L|(y & ds1' & E1 & E2 & D)]); [lia|].
    assert (y = []) as -> by (exact (self_nil _ _ E1)).
    exists ds1'. auto.
  Qed.
  Lemma app_head {X} (z l l' : list X) : z <> [] -> hd_error (z ++ l) = hd_error (z ++ l').
  Proof. destruct z; [contradiction|reflexivity]. Qed.
  Lemma cancel {X} (x z z2 r : list X) : x ++ r = z ++ z2 ++ r -> x = z ++ z2.
  Proof. rewrite app_assoc. apply app_inv_tail. Qed.

  Lemma tight_weak f b {A} (m : TM A) : tight None b m -> tight f b m.
  Proof. intros H x r r' ds ds' a ds1 _. apply H. exact I. Qed.
  Lemma tight_less f {A} (m : TM A) : tight f true m -> tight f false m.
  Proof. intros H x r r' ds ds' a ds1 F K D E. destruct (H _ _ r' _ _ _ _ F K D E) as [_ X]. split; [discriminate|exact X]. Qed.
  Lemma tight_ret f {A} (a : A) : tight f false (t_ret a).
  Proof.
    intros x r r' ds ds' a' ds1 F K D E. injection E as -> E ->. split; [discriminate|].
    assert (x = []) as -> by (exact (self_nil _ _ (eq_sym E))).
    exists ds'. auto.
  Qed.
  Lemma tight_throw f b {A} d : tight f b (@t_throw A d).
  Proof. intros x r r' ds ds' a ds1 F K D E. discriminate E. Qed.
  Lemma tight_bad f b {A} : tight f b (@t_no_fuel A).
  Proof. intros x r r' ds ds' a ds1 F K D E. discriminate E. Qed.
  Lemma tight_panic f b {A} : tight f b (@t_panic A).
  Proof. intros x r r' ds ds' a ds1 F K D E. discriminate E. Qed.
  Lemma tight_push f d : tight f false (t_push d).
  Proof.
    intros x r r' ds ds' a ds1 F K D E. injection E as <- E <-. cbn [t_toks t_diags] in *. split; [discriminate|].
    assert (x = []) as -> by (exact (self_nil _ _ (eq_sym E))).
    eexists. split; [reflexivity|]. apply Forall2_app; [exact D|apply diags_refl].
  Qed.
  Lemma tight_bind f b1 b2 {A B} (m : TM A) (k : A -> TM B) : stab false m -> (forall a, stab false (k a)) -> tight f b1 m -> (forall a, tight None b2 (k a)) ->
    tight f (b1 || b2) (t_bind m k).
  Proof.
    intros Sm Sk Tm Tk x r r' ds ds' b ds2 F K D E. destruct (bind_cut false false m k _ _ _ _ Sm Sk K E) as (a & z & l1 & ds1 & z2 & n1 & n2 & E1 & E2 & E3 & E4 & K1 & _).
    cbn [t_toks] in E4. subst l1. rewrite E3 in F, K, E1. apply cancel in E3. subst x. destruct (Tm _ _ (z2 ++ r') _ _ _ _ F K D E1) as (B1 & dsa & Ea & Da).
    destruct (Tk a _ _ r' _ _ _ _ I K1 Da E2) as (B2 & dsb & Eb & Db). split.
    { intros Hb N. apply app_eq_nil in N. destruct N as [-> ->]. apply orb_true_iff in Hb. destruct Hb as [Hb|Hb]; [exact (B1 Hb eq_refl)|exact (B2 Hb eq_refl)]. }
    exists dsb. split; [|exact Db]. unfold t_bind. rewrite <- app_assoc, Ea. exact Eb.
  Qed.
  Lemma tight_after f {A B} (m : TM A) (k : A -> TM B) : stab false m -> (forall a, stab false (k a)) -> (forall a, tight None true (k a)) -> tight f true (t_bind m k).
  Proof.
    intros Sm Sk Tk x r r' ds ds' b ds2 F K D E. destruct (bind_cut false false m k _ _ _ _ Sm Sk K E) as (a & z & l1 & ds1 & z2 & n1 & n2 & E1 & E2 & E3 & E4 & K1 & _).
    cbn [t_toks] in E4. subst l1. rewrite E3 in F, K, E1. apply cancel in E3. subst x.
    assert (N2 : z2 <> []) by (destruct (Tk a _ _ r' _ _ _ _ I K1 (diags_refl _) E2) as (B2 & _); exact (B2 eq_refl)).
    destruct (stab_run _ m z (z2 ++ r) (z2 ++ r') _ _ _ _ Sm (app_head _ _ _ N2) K D E1) as (dsa & Ea & Da).
    destruct (Tk a _ _ r' _ _ _ _ I K1 Da E2) as (_ & dsb & Eb & Db). split; [intros _ N; apply app_eq_nil in N; tauto|].
    exists dsb. split; [|exact Db]. unfold t_bind. rewrite <- app_assoc, Ea. exact Eb.
  Qed.
  Lemma tight_next f b {B} (k : token -> TM B) : (forall t, tight None b (k t)) -> (forall t, stab false (k t)) -> tight f true (t_bind (t_expect_next src) k).
  Proof.
    intros T S x r r' ds ds' a ds1 F K D E. destruct x as [|t x].
    - exfalso. destruct r as [|t r]; [discriminate E|]. change (k t (mkTS r ds) = TOk a (mkTS (t :: r) ds1)) in E.
      specialize (S t _ all_extends [] r r ds ds eq_refl (Forall_inv_tail K) I). cbn [app] in S. rewrite E in S. destruct S as [S _]. apply sufx_length in S. cbn [t_toks length] in S. lia.
    - change (k t (mkTS (x ++ r) ds) = TOk a (mkTS r ds1)) in E. destruct (T t x r r' ds ds' a ds1 I (Forall_inv_tail K) D E) as (_ & dsb & Eb & Db).
      split; [discriminate|]. exists dsb. split; [exact Eb|exact Db].
  Qed.
  Lemma tight_peek_expect f {B} (k : token -> TM B) : (forall t, tight (Some t) true (k t)) -> tight f true (t_bind (t_peek_expect src) k).
  Proof.
    intros T x r r' ds ds' a ds1 F K D E. destruct x as [|t x].
    - exfalso. destruct r as [|t r]; [discriminate E|]. change (k t (mkTS ([] ++ t :: r) ds) = TOk a (mkTS (t :: r) ds1)) in E.
      destruct (T t [] (t :: r) r' ds ds' a ds1 eq_refl K D E) as (N & _). exact (N eq_refl eq_refl).
    - change (k t (mkTS ((t :: x) ++ r) ds) = TOk a (mkTS r ds1)) in E. destruct (T t (t :: x) r r' ds ds' a ds1 eq_refl K D E) as (_ & dsb & Eb & Db).
      split; [discriminate|]. exists dsb. split; [exact Eb|exact Db].
  Qed.
  Lemma tight_skip t b {B} (k : unit -> TM B) : tight None b (k tt) -> stab false (k tt) -> tight (Some t) true (t_bind t_skip_tok k).
  Proof.
    intros T S x r r' ds ds' a ds1 F K D E. destruct x as [|t' x].
    - exfalso. destruct r as [|t' r]; [discriminate F|]. change (k tt (mkTS r ds) = TOk a (mkTS (t' :: r) ds1)) in E.
      specialize (S _ all_extends [] r r ds ds eq_refl (Forall_inv_tail K) I). cbn [app] in S. rewrite E in S. destruct S as [S _]. apply sufx_length in S. cbn [t_toks length] in S. lia.
    - change (k tt (mkTS (x ++ r) ds) = TOk a (mkTS r ds1)) in E. destruct (T x r r' ds ds' a ds1 I (Forall_inv_tail K) D E) as (_ & dsb & Eb & Db).
      split; [discriminate|]. exists dsb. split; [exact Eb|exact Db].
  Qed.
  Lemma tight_catch f {A B} (m : TM A) (k : A -> TM B) (g : diag -> TM B) : stab true m -> (forall a, stab false (k a)) -> (forall d, stab false (g d)) ->
    (forall a, tight None true (k a)) -> (forall d, tight None true (g d)) -> tight f true (t_catch m k g).
  Proof.
    intros Sm Sk Sg Tk Tg x r r' ds ds' b ds2 F K D E. unfold t_catch in E. pose proof (Sm _ all_extends [] (x ++ r) (x ++ r) ds ds eq_refl K I) as S0. cbn [app] in S0.
    assert (Z : forall (j : TM B) l1 ds1, sufx true (x ++ r) ds (mkTS l1 ds1) -> stab false j -> tight None true j -> j (mkTS l1 ds1) = TOk b (mkTS r ds2) ->
      exists z z2, x = z ++ z2 /\ z2 <> [] /\ l1 = z2 ++ r /\ forall dsa, Forall2 diag_eqv ds1 dsa -> exists dsb, j (mkTS (z2 ++ r') dsa) = TOk b (mkTS r' dsb) /\ Forall2 diag_eqv ds2 dsb).
    { intros j l1 ds1 S Sj Tj Ej. pose proof (sufx_known _ _ _ _ S K) as K1. cbn [t_toks] in K1. specialize (Sj _ all_extends [] l1 l1 ds1 ds1 eq_refl K1 I). cbn [app] in Sj. rewrite Ej in Sj.
      destruct Sj as [(z2 & n2 & E3 & _) _]. cbn [t_toks] in E3. destruct S as (z & n & E4 & _). cbn [t_toks] in E4. subst l1. apply cancel in E4. subst x.
      exists z, z2. split; [reflexivity|]. split; [exact (proj1 (Tj _ _ r' _ _ _ _ I K1 (diags_refl _) Ej) eq_refl)|]. split; [reflexivity|].
      intros dsa Da. destruct (Tj _ _ r' _ _ _ _ I K1 Da Ej) as (_ & dsb & Eb & Db). exists dsb. auto. }
    destruct (m (mkTS (x ++ r) ds)) as [a [l1 ds1]|d [l1 ds1]|] eqn:E1; [| |discriminate E].
    - destruct (Z _ _ _ (proj1 S0) (Sk a) (Tk a) E) as (z & z2 & -> & N2 & -> & Hz). rewrite <- app_assoc in E1, K.
      destruct (stab_run _ m z (z2 ++ r) (z2 ++ r') _ _ _ _ Sm (app_head _ _ _ N2) K D E1) as (dsa & Ea & Da). destruct (Hz _ Da) as (dsb & Eb & Db).
      split; [intros _ N; apply app_eq_nil in N; tauto|]. exists dsb. split; [|exact Db]. unfold t_catch. rewrite <- app_assoc, Ea. exact Eb.
    - destruct (Z _ _ _ (proj1 S0) (Sg d) (Tg d) E) as (z & z2 & -> & N2 & -> & Hz). rewrite <- app_assoc in E1, K.
      specialize (Sm _ eqv_extends z (z2 ++ r) (z2 ++ r') ds ds' (app_head _ _ _ N2) K D). rewrite E1 in Sm. cbn [t_toks t_diags] in Sm. destruct Sm as (_ & _ & [L|(y & dsa & Ey & Ea & Da)]); [lia|].
      assert (y = []) as -> by (exact (self_nil _ _ Ey)).
      destruct (Hz _ Da) as (dsb & Eb & Db).
      split; [intros _ N; apply app_eq_nil in N; tauto|]. exists dsb. split; [|exact Db]. unfold t_catch. rewrite <- app_assoc, Ea. exact Eb.
  Qed.

  Create HintDb tight.
  Hint Resolve tight_ret tight_throw tight_bad tight_panic tight_push : tight.
  Ltac ti :=
    repeat first
      [ progress intros
      | solve [auto with tight]
      | solve [apply tight_less; auto with tight]
      | match goal with
        | |- tight _ _ (match ?x with _ => _ end) => destruct x eqn:?
        | |- tight _ _ (if ?x then _ else _) => destruct x eqn:?
        end ].
  Ltac pieces := ti; try (apply (tight_bind _ false false); [st|st|solve [ti]|]); ti.
  Lemma tight_check f sp s p1 p2 c : tight f false (t_check_ident src sp s p1 p2 c).
  Proof.
    unfold t_check_ident, t_source. apply (tight_bind _ false false); [st|intros; destruct (check_ident_diag _ _ _ _ _ _) eqn:E; cbn [t_push_opt]; st|ti|].
    - apply stab_push. discriminate.
    - intros sr. destruct (check_ident_diag _ _ _ _ _ _); cbn [t_push_opt]; ti.
  Qed.
  Hint Resolve tight_check : tight.
  Lemma tight_node f sp n : tight f false (t_check_is_node_name src sp n).
  Proof. unfold t_check_is_node_name. pieces. Qed.
  Hint Resolve tight_node : tight.
  Lemma tight_path f sp p : tight f false (t_check_path src sp p).
  Proof. revert f. induction p; intros f; cbn [t_check_path]; pieces. Qed.
  Hint Resolve tight_path : tight.
  Lemma tight_reference f t r : tight f false (t_p_reference src t r).
  Proof.
    unfold t_p_reference. destruct r as [s|s].
    - unfold t_check_is_label. pieces.
    - apply (tight_bind _ false false); [st|st|destruct s; ti|]. intros _. pieces.
  Qed.
  Hint Resolve tight_reference : tight.
  Lemma tight_parse_reference : tight None true (t_parse_reference src).
  Proof. unfold t_parse_reference. apply (tight_next _ false); [|st]. ti. Qed.
  Lemma tight_node_name : tight None true (t_p_node_name src).
  Proof. unfold t_p_node_name. apply (tight_next _ false); [|st]. pieces. Qed.
  Lemma tight_property_name : tight None true (t_p_property_name src).
  Proof. unfold t_p_property_name, t_check_is_property_name. apply (tight_next _ false); [|st]. pieces. Qed.
  Lemma tight_memreserve : tight None true (t_memreserve_number src).
  Proof. unfold t_memreserve_number, t_last_pos, t_source. apply (tight_next _ false); [|st]. do 4 pieces. Qed.
  Lemma tight_cells n : forall f acc, tight f true (t_cells_loop src n acc).
  Proof.
    induction n; intros f acc; cbn [t_cells_loop]; ti. apply tight_after; [st| |].
    { intros _. apply stab_bind; [st|]. intros t. destruct (kind_eqb _ _); [st|]. apply (stab_catch true); [st|st| |discriminate]. intros d N. apply stab_bind; [apply stab_push; discriminate|st]. }
    intros _. apply tight_peek_expect. intros t. destruct (kind_eqb _ _).
    - apply (tight_next _ false); [ti|st].
    - apply tight_catch; [st|st| |ti|]; [intros d; apply stab_bind; [apply stab_push; discriminate|st]|].
      intros d. apply (tight_bind _ false true); [apply stab_push; discriminate|st|ti|ti].
  Qed.
  Lemma tight_bytes n : forall f acc, tight f true (t_bytes_loop src n acc).
  Proof.
    induction n; intros f acc; cbn [t_bytes_loop]; ti. apply tight_after; [st|st|].
    intros _. apply tight_peek_expect. intros t. destruct (kind_eqb _ _).
    - apply (tight_skip _ false); [ti|st].
    - apply tight_after; [st|st|ti].
  Qed.
  Hint Resolve tight_cells tight_bytes : tight.
  Lemma tight_value n : tight None true (t_property_value src n).
  Proof.
    unfold t_property_value. apply tight_after; [st|st|]. intros _. apply (tight_next _ false); [|st]. ti.
    - apply tight_less. apply (tight_bind _ true false); [st|st|ti|ti].
    - apply tight_less. apply (tight_bind _ true false); [st|st|ti|ti].
    - apply (tight_bind _ false false); [st|st|ti|ti].
  Qed.

  (** the values of a property: the token behind them may be a semicolon as well *)
  Lemma label_semi x r c r' ds ds' ds1 : tk_kind c = Semicolon -> Forall2 diag_eqv ds ds' -> t_skip_optional_label (mkTS (x ++ r) ds) = TOk tt (mkTS r ds1) ->
    exists ds1', t_skip_optional_label (mkTS (x ++ c :: r') ds') = TOk tt (mkTS (c :: r') ds1') /\ Forall2 diag_eqv ds1 ds1'.
  Proof.
    intros C D E. unfold t_skip_optional_label, t_bind, t_peek, t_skip_tok, t_next, t_ret in *. cbn [t_toks t_diags] in *. destruct x as [|t x]; cbn [app hd_error] in *.
    - rewrite C. exists ds'. split; [reflexivity|]. assert (ds = ds1) as <-; [|exact D]. destruct r as [|u r]; cbn [hd_error tl t_bind t_toks t_diags] in E; [injection E as <-; reflexivity|].
      destruct (tk_kind u); cbn [t_bind t_toks t_diags tl] in E; injection E; intros; subst; reflexivity.
    - assert (N : t :: x ++ r <> r) by (intros N; apply (f_equal (@length token)) in N; cbn [length] in N; rewrite app_length in N; lia).
      destruct (tk_kind t); cbn [t_bind t_toks t_diags tl hd_error] in E; injection E; intros; subst; try contradiction.
      assert (x = []) as -> by (apply (self_nil r); symmetry; assumption). exists ds'. split; [reflexivity|exact D].
  Qed.
  Lemma ok_shrinks q {A} (m : TM A) l ds a s1 : stab q m -> Forall known l -> m (mkTS l ds) = TOk a s1 -> (length (t_toks s1) <= length l)%nat.
  Proof. intros S K E. specialize (S _ all_extends [] l l ds ds eq_refl K I). cbn [app] in S. rewrite E in S. destruct S as [S _]. exact (sufx_length _ _ _ _ S). Qed.
  Lemma values_semi n : forall acc x r c r' ds ds' a ds1, Forall known (x ++ r) -> tk_kind c = Semicolon -> Forall2 diag_eqv ds ds' ->
    t_property_values src n acc (mkTS (x ++ r) ds) = TOk a (mkTS r ds1) ->
    x <> [] /\ exists ds1', t_property_values src n acc (mkTS (x ++ c :: r') ds') = TOk a (mkTS (c :: r') ds1') /\ Forall2 diag_eqv ds1 ds1'.
  Proof.
    induction n as [|n IH]; intros acc x r c r' ds ds' a ds1 K C D E; [discriminate E|]. cbn [t_property_values] in *.
    set (j := fun v t => if kind_eqb (tk_kind t) Comma then t_skip_tok ;^ t_property_values src n (acc ++ [v]) else t_ret (acc ++ [v])) in *.
    set (k2 := fun v => t_skip_optional_label ;^ (let^ t := t_peek_expect src in j v t)).
    set (k1 := fun _ : unit => let^ v := t_property_value src n in k2 v).
    change (t_bind t_skip_optional_label k1 (mkTS (x ++ r) ds) = TOk a (mkTS r ds1)) in E.
    change (x <> [] /\ exists ds1', t_bind t_skip_optional_label k1 (mkTS (x ++ c :: r') ds') = TOk a (mkTS (c :: r') ds1') /\ Forall2 diag_eqv ds1 ds1').
    assert (Sj : forall v t, stab false (j v t)) by (intros; unfold j; st).
    assert (S3 : forall v, stab false (let^ t := t_peek_expect src in j v t)) by (intros; st).
    assert (S2 : forall v, stab false (k2 v)) by (intros; unfold k2; st).
    assert (S1 : forall u, stab false (k1 u)) by (intros; unfold k1; st).
    destruct (bind_cut false false _ k1 _ _ _ _ (stab_skip_label false) S1 K E) as (u & z1 & l1 & da & y1 & _ & _ & E1 & E2 & Q1 & Q2 & K1 & _). cbn [t_toks] in Q2. destruct u.
    destruct (bind_cut false false _ k2 _ _ _ _ (stab_value false n) S2 K1 E2) as (v & z2 & l2 & db & y2 & _ & _ & E3 & E4 & Q3 & Q4 & K2 & _). cbn [t_toks] in Q4.
    destruct (bind_cut false false _ (fun _ => let^ t := t_peek_expect src in j v t) _ _ _ _ (stab_skip_label false) (fun _ => S3 v) K2 E4) as (u & z3 & l3 & dc & y3 & _ & _ & E5 & E6 & Q5 & Q6 & K3 & _). cbn [t_toks] in Q6. destruct u.
    clear Q4 Q2. rewrite Q6 in *. clear l3 Q6. rewrite Q5 in *. clear l2 Q5. rewrite Q3 in *. clear l1 Q3.
    rewrite Q1 in E1, K. rewrite !app_assoc in Q1. apply app_inv_tail in Q1. subst x. rewrite <- !app_assoc in *.
    assert (L : forall dx dc', Forall2 diag_eqv dc dc' -> (let^ t := t_peek_expect src in j v t) (mkTS (y3 ++ r) dc) = TOk a (mkTS r dx) ->
       exists ds1', (let^ t := t_peek_expect src in j v t) (mkTS (y3 ++ c :: r') dc') = TOk a (mkTS (c :: r') ds1') /\ Forall2 diag_eqv dx ds1').
    { intros dx dc' Dc Ex. destruct y3 as [|t y3]; cbn [app] in *.
      - destruct r as [|t r]; [discriminate Ex|]. change (j v t (mkTS (t :: r) dc) = TOk a (mkTS (t :: r) dx)) in Ex. unfold j in Ex. destruct (kind_eqb (tk_kind t) Comma).
        + exfalso. change (t_property_values src n (acc ++ [v]) (mkTS r dc) = TOk a (mkTS (t :: r) dx)) in Ex. apply (ok_shrinks false) in Ex; [cbn [t_toks length] in Ex; lia|st|exact (Forall_inv_tail K3)].
        + injection Ex as <- <-. change (exists ds1', j v c (mkTS (c :: r') dc') = TOk (acc ++ [v]) (mkTS (c :: r') ds1') /\ Forall2 diag_eqv dc ds1'). unfold j. rewrite C. exists dc'. split; [reflexivity|exact Dc].
      - change (j v t (mkTS (t :: y3 ++ r) dc) = TOk a (mkTS r dx)) in Ex. change (exists ds1', j v t (mkTS (t :: y3 ++ c :: r') dc') = TOk a (mkTS (c :: r') ds1') /\ Forall2 diag_eqv dx ds1').
        unfold j in *. destruct (kind_eqb (tk_kind t) Comma).
        + change (t_property_values src n (acc ++ [v]) (mkTS (y3 ++ r) dc) = TOk a (mkTS r dx)) in Ex.
          destruct (IH _ _ _ c r' _ _ _ _ (Forall_inv_tail K3) C Dc Ex) as (_ & d1 & E' & D'). exists d1. split; [exact E'|exact D'].
        + exfalso. injection Ex as _ Ex _. apply (f_equal (@length token)) in Ex. cbn [length] in Ex. rewrite app_length in Ex. lia. }
    destruct (tight_value n z2 (z3 ++ y3 ++ r) (z3 ++ y3 ++ r) da da v db I K1 (diags_refl _) E3) as [N2 _]. specialize (N2 eq_refl).
    split; [intros N; apply app_eq_nil in N; destruct N as [_ N]; apply app_eq_nil in N; destruct N as [N _]; exact (N2 N)|].
    destruct (stab_run false _ z1 (z2 ++ z3 ++ y3 ++ r) (z2 ++ z3 ++ y3 ++ c :: r') _ _ _ _ (stab_skip_label false) (app_head _ _ _ N2) K D E1) as (da' & Ea & Da).
    destruct (tight_value n z2 _ (z3 ++ y3 ++ c :: r') _ _ _ _ I K1 Da E3) as (_ & db' & Eb & Db).
    assert (W : exists dc', t_skip_optional_label (mkTS (z3 ++ y3 ++ c :: r') db') = TOk tt (mkTS (y3 ++ c :: r') dc') /\ Forall2 diag_eqv dc dc').
    { destruct y3 as [|t y3]; [exact (label_semi _ _ _ _ _ _ _ C Db E5)|]. exact (stab_run false _ z3 ((t :: y3) ++ r) ((t :: y3) ++ c :: r') _ _ _ _ (stab_skip_label false) eq_refl K2 Db E5). }
    destruct W as (dc' & Ec & Dc). destruct (L _ _ Dc E6) as (d1 & Ed & Dd). exists d1. split; [|exact Dd].
    unfold t_bind at 1. rewrite <- ?app_assoc. rewrite Ea. unfold k1, t_bind at 1. rewrite Eb. unfold k2, t_bind at 1. rewrite Ec. exact Ed.
  Qed.

  (** ** Up to the next token after which the lexer reads on in the same way in any case, there is no comma *)
  Definition resets (t : token) : Prop := tk_kind t = Semicolon \/ tk_kind t = OpenBrace \/ tk_kind t = Equal.
  Fixpoint calm (l : list token) : Prop := match l with [] => True | t :: l => tk_kind t <> Comma /\ (resets t \/ calm l) end.
  Lemma calm_resets t l : resets t -> calm (t :: l).
  Proof. intros H. split; [|left; exact H]. intros E. destruct H as [H|[H|H]]; congruence. Qed.
  Definition hush (f : option token) {A} (m : TM A) : Prop := forall l ds a s1, head_is f l -> Forall known l -> m (mkTS l ds) = TOk a s1 ->
    calm (t_toks s1) -> calm l.
  Lemma hush_weak f {A} (m : TM A) : hush None m -> hush f m.
  Proof. intros H l ds a s1 _. apply H. exact I. Qed.
  Lemma hush_resets t {A} (m : TM A) : resets t -> hush (Some t) m.
  Proof. intros H l ds a s1 F _ _ _. destruct l as [|t' l]; [discriminate F|]. injection F as ->. apply calm_resets, H. Qed.
  Lemma hush_ret f {A} (a : A) : hush f (t_ret a).
  Proof. intros l ds a' s1 F K E. injection E as _ <-. auto. Qed.
  Lemma hush_throw f {A} d : hush f (@t_throw A d).
  Proof. intros l ds a' s1 F K E. discriminate E. Qed.
  Lemma hush_bad f {A} : hush f (@t_no_fuel A).
  Proof. intros l ds a' s1 F K E. discriminate E. Qed.
  Lemma hush_push f d : hush f (t_push d).
  Proof. intros l ds a' s1 F K E. injection E as _ <-. auto. Qed.
  Lemma hush_bind f {A B} (m : TM A) (k : A -> TM B) : stab false m -> (forall a, stab false (k a)) -> hush f m -> (forall a, hush None (k a)) -> hush f (t_bind m k).
  Proof.
    intros Sm Sk Hm Hk l ds b s2 F K E C. destruct (bind_cut false false m k _ _ _ _ Sm Sk K E) as (a & z & l1 & ds1 & z2 & n1 & n2 & E1 & E2 & E3 & E4 & K1 & _).
    apply (Hm _ _ _ _ F K E1). exact (Hk a _ _ _ _ I K1 E2 C).
  Qed.
  Lemma hush_next f {B} (k : token -> TM B) : (forall t, tk_kind t <> Comma -> ~ resets t -> hush None (k t)) ->
    (forall t s a s1, tk_kind t = Comma -> k t s <> TOk a s1) -> hush f (t_bind (t_expect_next src) k).
  Proof.
    intros H N l ds a s1 F K E C. destruct l as [|t l]; [discriminate E|]. change (k t (mkTS l ds) = TOk a s1) in E.
    assert (T : tk_kind t <> Comma) by (intros T; exact (N _ _ _ _ T E)). split; [exact T|].
    assert (D : resets t \/ ~ resets t) by (unfold resets; destruct (tk_kind t); first [left; tauto|right; intros [X|[X|X]]; discriminate X]).
    destruct D as [D|D]; [left; exact D|right]. exact (H t T D l ds a s1 I (Forall_inv_tail K) E C).
  Qed.
  Lemma hush_peek_expect f {B} (k : token -> TM B) : (forall t, hush (Some t) (k t)) -> hush f (t_bind (t_peek_expect src) k).
  Proof. intros H l ds a s1 F K E C. destruct l as [|t l]; [discriminate E|]. exact (H t (t :: l) ds a s1 eq_refl K E C). Qed.
  Lemma hush_semicolon f : hush f (t_expect_semicolon src rl).
  Proof.
    intros l ds a s1 F K E C. destruct l as [|t l]; [exact I|]. destruct (kind_eqb (tk_kind t) Semicolon) eqn:T.
    - apply calm_resets. left. destruct (tk_kind t); try discriminate T. reflexivity.
    - rewrite semicolon_missing in E; [injection E as _ <-; exact C|]. intros t' X. injection X as <-. split; [exact (Forall_inv K)|]. intros X. rewrite X in T. discriminate T.
  Qed.

  Create HintDb hush.
  Hint Resolve hush_ret hush_throw hush_bad hush_push hush_semicolon : hush.
  Ltac hu := repeat first
      [ progress intros
      | solve [auto with hush]
      | match goal with
        | |- hush _ (t_bind (t_expect_next src) _) => apply hush_next; [|let E := fresh in intros ? ? ? ? E; rewrite E; discriminate]
        | |- hush _ (t_bind (t_peek_expect src) _) => apply hush_peek_expect
        | |- hush _ (t_bind _ _) => apply hush_bind; [solve [st]|solve [st]|solve [auto with hush]|]
        | |- hush _ (match ?x with _ => _ end) => destruct x eqn:?
        | |- hush _ (if ?x then _ else _) => destruct x eqn:?
        end ].
  Lemma hush_check f sp s p1 p2 c : hush f (t_check_ident src sp s p1 p2 c).
  Proof.
    unfold t_check_ident, t_source. intros l ds a s1 F K E. unfold t_bind, t_ret in E. destruct (check_ident_diag _ _ _ _ _ _); cbn [t_push_opt] in E; injection E as _ <-; auto.
  Qed.
  Hint Resolve hush_check : hush.
  Lemma hush_label f sp s : hush f (t_check_is_label src sp s).
  Proof. apply hush_check. Qed.
  Lemma hush_prop f sp s : hush f (t_check_is_property_name src sp s).
  Proof. apply hush_check. Qed.
  Lemma hush_node f sp s : hush f (t_check_is_node_name src sp s).
  Proof. unfold t_check_is_node_name. hu. Qed.
  Hint Resolve hush_label hush_prop hush_node : hush.
  Lemma hush_path f sp p : hush f (t_check_path src sp p).
  Proof. revert f. induction p; intros f; cbn [t_check_path]; hu. Qed.
  Hint Resolve hush_path : hush.
  Lemma hush_source f : hush f (t_source src). Proof. apply hush_ret. Qed.
  Lemma hush_incl f : hush f (t_include_paths incl). Proof. apply hush_ret. Qed.
  Lemma hush_last f : hush f t_last_pos. Proof. apply hush_ret. Qed.
  Hint Resolve hush_source hush_incl hush_last : hush.
  Lemma hush_reference f t r : hush f (t_p_reference src t r).
  Proof.
    unfold t_p_reference. destruct r as [s|s]; [hu|]. apply hush_bind; [st|st|destruct s; hu|]. intros _. hu.
  Qed.
  Hint Resolve hush_reference : hush.
  Lemma hush_memreserve f : hush f (t_memreserve_number src).
  Proof. unfold t_memreserve_number. hu. Qed.
  Lemma hush_node_name f : hush f (t_p_node_name src).
  Proof. unfold t_p_node_name. hu. Qed.
  Lemma hush_property_name f : hush f (t_p_property_name src).
  Proof. unfold t_p_property_name. hu. Qed.
  Lemma hush_parse_reference f : hush f (t_parse_reference src).
  Proof. unfold t_parse_reference. hu. Qed.
  Lemma hush_omit f o : hush f (t_check_omit src o).
  Proof. unfold t_check_omit. hu. Qed.
  Lemma hush_order f b p : hush f (t_check_order src b p).
  Proof. unfold t_check_order. hu. Qed.
  Hint Resolve hush_memreserve hush_node_name hush_property_name hush_parse_reference hush_omit hush_order : hush.
  Ltac hr := apply hush_resets; unfold resets; match goal with H : tk_kind _ = _ |- _ => rewrite H end; tauto.
  Lemma hush_ext f {A} (m m' : TM A) : (forall s, m s = m' s) -> hush f m' -> hush f m.
  Proof. intros E H l ds a s1. rewrite E. apply H. Qed.
  Lemma hush_assoc f {A B C} (m : TM A) (j : A -> TM B) (k : B -> TM C) : hush f (t_bind m (fun a => t_bind (j a) k)) -> hush f (t_bind (t_bind m j) k).
  Proof. apply hush_ext. intros s. unfold t_bind. destruct (m s); reflexivity. Qed.
  Lemma hush_ret_bind f {A B} (a : A) (k : A -> TM B) : hush f (k a) -> hush f (t_bind (t_ret a) k).
  Proof. intros H. exact H. Qed.
  Ltac comma := let E := fresh in intros ? ? ? ? E; unfold t_bind, t_ret; rewrite ?E; change (kind_eqb Comma (Directive DeleteNode)) with false;
    change (kind_eqb Comma (Directive DeleteProperty)) with false; change (kind_eqb Comma (Directive OmitIfNoRef)) with false; cbv beta iota; rewrite ?E; cbv beta iota; rewrite ?E; discriminate.
  Lemma hush_payload n : forall f items nd, hush f (t_payload_loop src rl n items nd).
  Proof.
    induction n as [|n IH]; intros f items nd; cbn [t_payload_loop]; [hu|].
    apply hush_next; [|comma]. intros t N1 N2. destruct (kind_eqb _ _); [hu|]. destruct (kind_eqb _ _); [hu|].
    assert (B : forall t lb o, hush None (match tk_kind t with
      | Ident s =>
        let^ t2 := t_peek_expect src in
        match tk_kind t2 with
        | OpenBrace =>
          let name := mkWT (node_name_of s) t in
          t_check_is_node_name src (tk_span t) (node_name_of s) ;^
          t_expect src OpenBrace ;^
          let^ pl := t_payload_loop src rl n [] false in
          t_payload_loop src rl n (items ++ [INode (mkNode lb name pl o)]) true
        | Equal =>
          t_skip_tok ;^
          t_check_is_property_name src (tk_span t) s ;^
          let^ values := t_property_values src n [] in
          let^ e := t_expect_semicolon src rl in
          t_check_omit src o ;^
          let p := mkProp lb (mkWT s t) values (or_token e t2) in
          t_check_order src nd p ;^
          t_payload_loop src rl n (items ++ [IProperty p]) nd
        | Semicolon =>
          t_skip_tok ;^
          t_check_is_property_name src (tk_span t) s ;^
          let p := mkProp lb (mkWT s t) [] t2 in
          t_check_order src nd p ;^
          t_check_omit src o ;^
          t_payload_loop src rl n (items ++ [IProperty p]) nd
        | _ =>
          let^ p := t_last_pos in
          let^ src := t_source src in
          t_throw (diag_expected (tk_span t2) src [Semicolon; Equal; OpenBrace; Directive OmitIfNoRef])
        end
      | CloseBrace => let^ e := t_expect_semicolon src rl in t_ret (mkPayload items (or_token e t))
      | _ => t_throw (diag_expected (tk_span t) (tk_source t) [k_ident; CloseBrace])
      end)).
    { intros t2 lb o. destruct (tk_kind t2) eqn:E; try solve [hu]. apply hush_peek_expect. intros t3. destruct (tk_kind t3) eqn:E3; try hr; hu. }
    destruct (kind_eqb _ _).
    - apply hush_assoc, hush_next; [|comma]. intros t1 M1 M2. apply hush_ret_bind.
      destruct (tk_kind t1) eqn:E; try (apply hush_ret_bind, B). apply hush_assoc, hush_bind; [st|st|hu|]. intros _. apply hush_assoc, hush_next; [|comma].
      intros t3 _ _. apply hush_ret_bind, B.
    - apply hush_ret_bind.
      destruct (tk_kind t) eqn:E; try (apply hush_ret_bind, B). apply hush_assoc, hush_bind; [st|st|hu|]. intros _. apply hush_assoc, hush_next; [|comma].
      intros t3 _ _. apply hush_ret_bind, B.
  Qed.
  Hint Resolve hush_payload : hush.
  Lemma hush_node_payload n f : hush f (t_node_payload src rl n).
  Proof.
    unfold t_node_payload. apply hush_bind; [st|st| |hu]. intros l ds a s1 F K E C. destruct l as [|t l]; [exact I|].
    unfold t_expect, t_bind, t_cur_pos, t_next, t_source, t_ret in E. cbn [t_toks hd_error] in E. destruct (kind_eqb (tk_kind t) OpenBrace) eqn:T; [|discriminate E].
    apply calm_resets. right. left. destruct (tk_kind t); try discriminate T. reflexivity.
  Qed.
  Hint Resolve hush_node_payload : hush.
  Lemma hush_primary n f : hush f (t_p_primary src incl rl n).
  Proof.
    unfold t_p_primary. hu. intros l ds a1 s1 F K E C. destruct l as [|u l]; [exact I|].
    destruct (kind_eqb (tk_kind u) Semicolon) eqn:T.
    - apply calm_resets. left. destruct (tk_kind u); try discriminate T. reflexivity.
    - unfold t_bind, t_peek, t_include_paths, t_ret in E. cbn [t_toks hd_error] in E. rewrite T in E. injection E as _ <-. exact C.
  Qed.
  Hint Resolve hush_primary : hush.
  Hint Resolve stab_file_loop : stab.
  Lemma hush_file_loop n : forall acc f, hush f (t_file_loop src incl rl n acc).
  Proof.
    induction n as [|n IH]; intros acc f; cbn [t_file_loop]; [hu|]. apply hush_bind; [st|st| |].
    - intros l ds a s1 F K E. injection E as _ <-. auto.
    - intros [t|]; hu.
  Qed.

  (** ** Every complaint about a missing semicolon goes away if a semicolon is put in where it was made *)
  Definition fixes (f : option token) (b : bool) {A} (R : A -> A -> Prop) (m : TM A) : Prop := forall l ds a s1 n1 d n2,
    head_is f l -> Forall known l -> m (mkTS l ds) = TOk a s1 -> t_diags s1 = ds ++ n1 ++ d :: n2 -> semi d ->
    exists pre post z, l = pre ++ post /\ (b = true -> pre <> []) /\ post = z ++ t_toks s1 /\ (calm (t_toks s1) -> calm post) /\ d = missing post
      /\ forall c ds', tk_kind c = Semicolon -> Forall2 diag_eqv ds ds' -> eqv_res R (TOk a (mkTS (t_toks s1) (ds ++ n1 ++ n2))) (m (mkTS (pre ++ c :: post) ds')).

  Lemma toks_refl l : Forall2 tok_eqv l l.
  Proof. induction l; constructor; [reflexivity|assumption]. Qed.
  Lemma fixes_weak f b {A} (R : A -> A -> Prop) m : fixes None b R m -> fixes f b R m.
  Proof. intros H l ds a s1 n1 d n2 _. apply H. exact I. Qed.
  Lemma fixes_quiet f b {A} (R : A -> A -> Prop) m : stab true m -> fixes f b R m.
  Proof.
    intros S l ds a s1 n1 d n2 F K E E1 Hd. exfalso. specialize (S _ all_extends [] l l ds ds eq_refl K I). cbn [app] in S. rewrite E in S.
    destruct S as [(z & new & _ & E2 & Q) _]. rewrite E2 in E1. apply app_inv_head in E1. rewrite E1 in Q. specialize (Q eq_refl). rewrite Forall_forall in Q.
    apply (Q d); [apply in_or_app; right; left; reflexivity|exact Hd].
  Qed.
  Lemma fixes_next f b {B} (R : B -> B -> Prop) (k : token -> TM B) : (forall t, fixes None b R (k t)) -> fixes f true R (t_bind (t_expect_next src) k).
  Proof.
    intros H l ds a s1 n1 d n2 F K E E1 Hd. destruct l as [|t l]; [discriminate E|]. change (k t (mkTS l ds) = TOk a s1) in E.
    destruct (H t l ds a s1 n1 d n2 I (Forall_inv_tail K) E E1 Hd) as (pre & post & z & -> & _ & P1 & P2 & P3 & P4).
    exists (t :: pre), post, z. split; [reflexivity|]. split; [discriminate|]. split; [exact P1|]. split; [exact P2|]. split; [exact P3|exact P4].
  Qed.
  Lemma fixes_peek_expect f {B} (R : B -> B -> Prop) (k : token -> TM B) : (forall t, fixes (Some t) true R (k t)) -> fixes f true R (t_bind (t_peek_expect src) k).
  Proof.
    intros H l ds a s1 n1 d n2 F K E E1 Hd. destruct l as [|t l]; [discriminate E|].
    destruct (H t (t :: l) ds a s1 n1 d n2 eq_refl K E E1 Hd) as (pre & post & z & P0 & N & P1 & P2 & P3 & P4). specialize (N eq_refl).
    destruct pre as [|t' pre]; [contradiction|]. injection P0 as <- P0.
    exists (t :: pre), post, z. split; [rewrite P0; reflexivity|]. split; [discriminate|]. split; [exact P1|]. split; [exact P2|]. split; [exact P3|exact P4].
  Qed.
  Lemma fixes_peek f {B} (R : B -> B -> Prop) (k : option token -> TM B) : (forall t, fixes (Some t) true R (k (Some t))) -> stab true (k None) -> fixes f true R (t_bind t_peek k).
  Proof.
    intros H N0 l ds a s1 n1 d n2 F K E E1 Hd. destruct l as [|t l].
    { change (k None (mkTS [] ds) = TOk a s1) in E. destruct (fixes_quiet None true R _ N0 _ _ _ _ _ _ _ I K E E1 Hd) as (pre & post & z & P0 & N & _).
      symmetry in P0. apply app_eq_nil in P0. destruct P0 as [-> _]. destruct (N eq_refl eq_refl). }
    destruct (H t (t :: l) ds a s1 n1 d n2 eq_refl K E E1 Hd) as (pre & post & z & P0 & N & P1 & P2 & P3 & P4). specialize (N eq_refl).
    destruct pre as [|t' pre]; [contradiction|]. injection P0 as <- P0.
    exists (t :: pre), post, z. split; [rewrite P0; reflexivity|]. split; [discriminate|]. split; [exact P1|]. split; [exact P2|]. split; [exact P3|exact P4].
  Qed.
  Lemma fixes_skip t b {B} (R : B -> B -> Prop) (k : unit -> TM B) : fixes None b R (k tt) -> fixes (Some t) true R (t_bind t_skip_tok k).
  Proof.
    intros H l ds a s1 n1 d n2 F K E E1 Hd. destruct l as [|t' l]; [discriminate F|]. change (k tt (mkTS l ds) = TOk a s1) in E.
    destruct (H l ds a s1 n1 d n2 I (Forall_inv_tail K) E E1 Hd) as (pre & post & z & -> & _ & P1 & P2 & P3 & P4).
    exists (t' :: pre), post, z. split; [reflexivity|]. split; [discriminate|]. split; [exact P1|]. split; [exact P2|]. split; [exact P3|exact P4].
  Qed.
  (** a diagnostic of a list whose first part has none is in the second *)
  Lemma in_second (nm nk n1 n2 : list diag) d : Forall (fun d => ~ semi d) nm -> semi d -> nm ++ nk = n1 ++ d :: n2 -> exists n1', n1 = nm ++ n1' /\ nk = n1' ++ d :: n2.
  Proof.
    revert n1. induction nm as [|e nm IH]; intros n1 H Hd E; [exists n1; auto|]. destruct n1 as [|e' n1]; cbn [app] in E; injection E as -> E.
    - destruct (Forall_inv H Hd).
    - destruct (IH n1 (Forall_inv_tail H) Hd E) as (n1' & -> & E'). exists n1'. auto.
  Qed.
  (** a function that can be followed by a semicolon instead of what follows *)
  Definition semi_tight (f : option token) (b : bool) {A} (m : TM A) : Prop := forall x r c r' ds ds' a ds1,
    head_is f (x ++ r) -> Forall known (x ++ r) -> tk_kind c = Semicolon -> Forall2 diag_eqv ds ds' -> m (mkTS (x ++ r) ds) = TOk a (mkTS r ds1) ->
    (b = true -> x <> []) /\ exists ds1', m (mkTS (x ++ c :: r') ds') = TOk a (mkTS (c :: r') ds1') /\ Forall2 diag_eqv ds1 ds1'.
  Lemma tight_semi f b {A} (m : TM A) : tight f b m -> semi_tight f b m.
  Proof. intros H x r c r' ds ds' a ds1 F K C D E. exact (H x r (c :: r') ds ds' a ds1 F K D E). Qed.
  Lemma values_tight n acc : semi_tight None true (t_property_values src n acc).
  Proof. intros x r c r' ds ds' a ds1 _ K C D E. destruct (values_semi n acc x r c r' ds ds' a ds1 K C D E) as [N X]. split; [intros _; exact N|exact X]. Qed.
  Lemma fixes_tight f bm b {A B} (R : B -> B -> Prop) (m : TM A) (k : A -> TM B) : stab true m -> semi_tight f bm m -> (forall a, stab false (k a)) ->
    (forall a, fixes None b R (k a)) -> fixes f (bm || b) R (t_bind m k).
  Proof.
    intros Sm Tm Sk Hk l ds b' s2 n1 d n2 F K E E1 Hd.
    destruct (bind_cut true false m k _ _ _ _ Sm Sk K E) as (a & z & l1 & ds1 & z2 & nm & nk & Ea & Eb & E3 & E4 & K1 & E5 & E6 & Q & _). specialize (Q eq_refl).
    rewrite E6, E5, <- app_assoc in E1. apply app_inv_head in E1. destruct (in_second _ _ _ _ _ Q Hd E1) as (n1' & -> & En).
    destruct (Hk a l1 ds1 b' s2 n1' d n2 I K1 Eb ltac:(rewrite E6, En; reflexivity) Hd) as (pre & post & z' & P0 & N & P1 & P2 & P3 & P4).
    exists (z ++ pre), post, z'. split; [rewrite E3, P0, app_assoc; reflexivity|]. split.
    { intros Hb X. apply app_eq_nil in X. destruct X as [-> ->]. apply orb_true_iff in Hb. destruct Hb as [Hb|Hb]; [|exact (N Hb eq_refl)].
      cbn [app] in *. subst l. destruct (Tm [] l1 (mkToken Semicolon (mkSpan pos_zero pos_zero) []) [] ds ds a ds1 F K eq_refl (diags_refl _) Ea) as [X _]. exact (X Hb eq_refl). }
    split; [exact P1|]. split; [exact P2|]. split; [exact P3|]. intros c ds' C D. subst l.
    assert (X : exists dsa, m (mkTS ((z ++ pre) ++ c :: post) ds') = TOk a (mkTS (pre ++ c :: post) dsa) /\ Forall2 diag_eqv ds1 dsa).
    { rewrite <- app_assoc. destruct pre as [|p pre]; [cbn [app] in *|].
      - rewrite P0 in Ea, F, K. destruct (Tm z post c post ds ds' a ds1 F K C D Ea) as [_ X]. exact X.
      - rewrite P0 in Ea, K. exact (stab_run true m z ((p :: pre) ++ post) ((p :: pre) ++ c :: post) ds ds' a ds1 Sm eq_refl K D Ea). }
    destruct X as (dsa & Ex & Dx). unfold t_bind. rewrite Ex.
    specialize (P4 c dsa C Dx). replace (ds ++ (nm ++ n1') ++ n2) with (ds1 ++ n1' ++ n2) by (rewrite E5, <- !app_assoc; reflexivity). exact P4.
  Qed.
  Lemma fixes_after f {A B} (R : B -> B -> Prop) (m : TM A) (k : A -> TM B) : stab true m -> (forall a, stab false (k a)) ->
    (forall a, fixes None true R (k a)) -> fixes f true R (t_bind m k).
  Proof.
    intros Sm Sk Hk l ds b' s2 n1 d n2 F K E E1 Hd.
    destruct (bind_cut true false m k _ _ _ _ Sm Sk K E) as (a & z & l1 & ds1 & z2 & nm & nk & Ea & Eb & E3 & E4 & K1 & E5 & E6 & Q & _). specialize (Q eq_refl).
    rewrite E6, E5, <- app_assoc in E1. apply app_inv_head in E1. destruct (in_second _ _ _ _ _ Q Hd E1) as (n1' & -> & En).
    destruct (Hk a l1 ds1 b' s2 n1' d n2 I K1 Eb ltac:(rewrite E6, En; reflexivity) Hd) as (pre & post & z' & P0 & N & P1 & P2 & P3 & P4). specialize (N eq_refl).
    exists (z ++ pre), post, z'. split; [rewrite E3, P0, app_assoc; reflexivity|]. split; [intros _ X; apply app_eq_nil in X; tauto|].
    split; [exact P1|]. split; [exact P2|]. split; [exact P3|]. intros c ds' C D. subst l. rewrite P0 in Ea, K.
    destruct (stab_run true m z (pre ++ post) (pre ++ c :: post) ds ds' a ds1 Sm (app_head _ _ _ N) K D Ea) as (dsa & Ex & Dx).
    unfold t_bind. rewrite <- (app_assoc z pre), Ex. specialize (P4 c dsa C Dx). replace (ds ++ (nm ++ n1') ++ n2) with (ds1 ++ n1' ++ n2) by (rewrite E5, <- !app_assoc; reflexivity). exact P4.
  Qed.
  (** the complaint may be made by the first function or by the second *)
  Lemma fixes_both f b {A B} (Rm : A -> A -> Prop) (R : B -> B -> Prop) (m : TM A) (k : A -> TM B) : stab false m -> (forall a, stab false (k a)) ->
    fixes f b Rm m -> (forall a, hush None (k a)) -> (forall a, fixes None true R (k a)) -> (forall a a', Rm a a' -> same R (k a) (k a')) -> fixes f b R (t_bind m k).
  Proof.
    intros Sm Sk Hm Hh Hk Hr l ds b' s2 n1 d n2 F K E E1 Hd.
    destruct (bind_cut false false m k _ _ _ _ Sm Sk K E) as (a & z & l1 & ds1 & z2 & nm & nk & Ea & Eb & E3 & E4 & K1 & E5 & E6 & _).
    rewrite E6, E5, <- app_assoc in E1. apply app_inv_head in E1.
    assert (W : (exists n1', n1 = nm ++ n1' /\ nk = n1' ++ d :: n2) \/ (exists n2', nm = n1 ++ d :: n2' /\ n2 = n2' ++ nk)).
    { clear -E1. revert n1 E1. induction nm as [|e nm IH]; intros n1 E; [left; exists n1; auto|]. destruct n1 as [|e' n1]; cbn [app] in E; injection E as -> E.
      - right. exists nm. auto.
      - destruct (IH n1 E) as [(n1' & -> & E')|(n2' & -> & E')]; [left; exists n1'; auto|right; exists n2'; auto]. }
    destruct W as [(n1' & -> & En)|(n2' & En & ->)].
    - destruct (Hk a l1 ds1 b' s2 n1' d n2 I K1 Eb ltac:(rewrite E6, En; reflexivity) Hd) as (pre & post & z' & P0 & N & P1 & P2 & P3 & P4). specialize (N eq_refl).
      exists (z ++ pre), post, z'. split; [rewrite E3, P0, app_assoc; reflexivity|]. split; [intros _ X; apply app_eq_nil in X; tauto|].
      split; [exact P1|]. split; [exact P2|]. split; [exact P3|]. intros c ds' C D. subst l. rewrite P0 in Ea, K.
      destruct (stab_run false m z (pre ++ post) (pre ++ c :: post) ds ds' a ds1 Sm (app_head _ _ _ N) K D Ea) as (dsa & Ex & Dx).
      unfold t_bind. rewrite <- (app_assoc z pre), Ex. specialize (P4 c dsa C Dx). replace (ds ++ (nm ++ n1') ++ n2) with (ds1 ++ n1' ++ n2) by (rewrite E5, <- !app_assoc; reflexivity). exact P4.
    - destruct (Hm l ds a (mkTS l1 ds1) n1 d n2' F K Ea ltac:(cbn [t_diags]; rewrite E5, En; reflexivity) Hd) as (pre & post & z' & P0 & N & P1 & P2 & P3 & P4). cbn [t_toks] in *.
      exists pre, post, (z' ++ z2). split; [exact P0|]. split; [exact N|]. split; [rewrite P1, E4, app_assoc; reflexivity|].
      split; [intros C; exact (P2 (Hh a _ _ _ _ I K1 Eb C))|]. split; [exact P3|]. intros c ds' C D. specialize (P4 c ds' C D). unfold t_bind.
      unfold eqv_res in P4. destruct (m (mkTS (pre ++ c :: post) ds')) as [a' s'|e s'|]; [|contradiction|contradiction]. destruct P4 as (Ra & Es).
      pose proof (Hr a a' Ra (mkTS l1 (ds ++ n1 ++ n2')) s' Es) as Q.
      set (D0 := fun d1 d2 : list diag => exists x1 x2, d1 = ds1 ++ x1 /\ d2 = (ds ++ n1 ++ n2') ++ x2 /\ Forall2 diag_eqv x1 x2).
      assert (HD : extends D0).
      { intros e e' x x' (x1 & x2 & -> & -> & H) Hx. exists (x1 ++ [x]), (x2 ++ [x']). rewrite !app_assoc. split; [reflexivity|]. split; [reflexivity|]. apply eqv_extends; assumption. }
      pose proof (Sk a D0 HD l1 [] [] ds1 (ds ++ n1 ++ n2') eq_refl) as X. rewrite !app_nil_r in X. specialize (X K1). rewrite Eb in X.
      destruct X as (_ & [X|X]); [exists [], []; rewrite !app_nil_r; split; [reflexivity|]; split; [reflexivity|constructor]|cbn [length] in X; lia|].
      destruct X as (y & dx & Ey & Ex & (x1 & x2 & X1 & X2 & X3)). rewrite app_nil_r in Ey, Ex. subst y. rewrite E6 in X1. apply app_inv_head in X1. subst x1.
      rewrite Ex in Q. unfold eqv_res in Q |- *. destruct (k a' s') as [b'' s''|e s''|]; [|contradiction|contradiction]. destruct Q as (Rb & Q1 & Q2 & Q3). split; [exact Rb|].
      cbn [t_toks t_diags] in *. split; [exact Q1|]. split; [exact Q2|]. cbn [t_diags]. rewrite X2 in Q3. 
      assert (Y : Forall2 diag_eqv (ds ++ n1 ++ n2' ++ nk) ((ds ++ n1 ++ n2') ++ x2)).
      { replace (ds ++ n1 ++ n2' ++ nk) with ((ds ++ n1 ++ n2') ++ nk) by (rewrite <- !app_assoc; reflexivity). apply Forall2_app; [apply diags_refl|exact X3]. }
      clear -Y Q3. revert Q3. generalize (t_diags s''). induction Y as [|e e' l l' H Y IH]; intros l'' Q3; inversion Q3 as [|? e'' ? l3 Q4 Q5]; subst; constructor; [|apply IH; exact Q5].
      destruct H as [H1 H2], Q4 as [H3 H4]. split; congruence.
  Qed.
  Lemma fixes_semicolon f : fixes f false (fun _ _ => True) (t_expect_semicolon src rl).
  Proof.
    intros l ds a s1 n1 d n2 F K E E1 Hd. destruct l as [|t l].
    - rewrite semicolon_missing in E by discriminate. injection E as <- <-. cbn [t_diags t_toks] in *. apply app_inv_head in E1.
      destruct n1 as [|e n1]; [|injection E1 as _ E1; destruct n1; discriminate E1]. injection E1 as <- <-.
      exists [], [], []. split; [reflexivity|]. split; [discriminate|]. split; [reflexivity|]. split; [auto|]. split; [reflexivity|]. intros c ds' C D. cbn [app].
      rewrite (semicolon_there c [] ds' C). split; [exact I|]. split; [constructor|]. split; [constructor|]. cbn [t_diags]. rewrite app_nil_r. exact D.
    - destruct (kind_eqb (tk_kind t) Semicolon) eqn:T.
      + exfalso. assert (T' : tk_kind t = Semicolon) by (destruct (tk_kind t); try discriminate T; reflexivity). rewrite (semicolon_there t l ds T') in E. injection E as _ <-.
        cbn [t_diags] in E1. apply (f_equal (@length diag)) in E1. rewrite !app_length in E1. cbn [length] in E1. lia.
      + rewrite semicolon_missing in E.
        2: { intros t' X. injection X as <-. split; [exact (Forall_inv K)|]. intros X. rewrite X in T. discriminate T. }
        injection E as <- <-. cbn [t_diags t_toks] in *. apply app_inv_head in E1.
        destruct n1 as [|e n1]; [|injection E1 as _ E1; destruct n1; discriminate E1]. injection E1 as <- <-.
        exists [], (t :: l), []. split; [reflexivity|]. split; [discriminate|]. split; [reflexivity|]. split; [auto|]. split; [reflexivity|]. intros c ds' C D. cbn [app].
        rewrite (semicolon_there c (t :: l) ds' C). split; [exact I|]. split; [apply toks_refl|]. split; [exact K|]. cbn [t_diags]. rewrite app_nil_r. exact D.
  Qed.
  Lemma fixes_less f b {A} (R : A -> A -> Prop) m : fixes f true R m -> fixes f b R m.
  Proof.
    intros H l ds a s1 n1 d n2 F K E E1 Hd. destruct (H l ds a s1 n1 d n2 F K E E1 Hd) as (pre & post & z & P0 & N & P). exists pre, post, z. split; [exact P0|]. split; [intros _; exact (N eq_refl)|exact P].
  Qed.
  Lemma fixes_semi_then f {B} (R : B -> B -> Prop) (k : option token -> TM B) : (forall a, stab false (k a)) -> (forall a, hush None (k a)) -> (forall a, fixes None true R (k a)) ->
    (forall a a', same R (k a) (k a')) -> fixes f false R (t_bind (t_expect_semicolon src rl) k).
  Proof.
    intros Sk Hk Fk Ek. apply (fixes_both f false (fun _ _ => True)); [apply stab_semicolon|exact Sk|apply fixes_semicolon|exact Hk|exact Fk|]. intros a a' _. apply Ek.
  Qed.
  Lemma fixes_expect f b {B} k0 (R : B -> B -> Prop) (k : token -> TM B) : (forall t, fixes None b R (k t)) -> fixes f true R (t_bind (t_expect src k0) k).
  Proof.
    intros H l ds a s1 n1 d n2 F K E E1 Hd. destruct l as [|t l]; [discriminate E|].
    assert (X : forall ds l', t_bind (t_expect src k0) k (mkTS (t :: l') ds) = if kind_eqb (tk_kind t) k0 then k t (mkTS l' ds) else TErr (diag_expected (tk_span t) src [tk_kind t]) (mkTS l' ds)).
    { intros ds0 l'. unfold t_bind, t_expect, t_cur_pos, t_next, t_source, t_ret, t_bind. cbn [t_toks t_diags hd_error tl]. destruct (kind_eqb (tk_kind t) k0); reflexivity. }
    rewrite X in E. destruct (kind_eqb (tk_kind t) k0) eqn:T; [|discriminate E].
    destruct (H t l ds a s1 n1 d n2 I (Forall_inv_tail K) E E1 Hd) as (pre & post & z & -> & _ & P1 & P2 & P3 & P4).
    exists (t :: pre), post, z. split; [reflexivity|]. split; [discriminate|]. split; [exact P1|]. split; [exact P2|]. split; [exact P3|].
    intros c ds' C D. cbn [app]. rewrite X. exact (P4 c ds' C D).
  Qed.

  Ltac quiet := solve [apply fixes_quiet; st].
  Lemma fixes_payload n : forall f items nd, fixes f true (via bare_payload) (t_payload_loop src rl n items nd).
  Proof.
    induction n as [|n IH]; intros f items nd; cbn [t_payload_loop]; [quiet|]. apply (fixes_next _ false). intros t.
    assert (L : forall its its' b, map bare_item its = map bare_item its' -> same (via bare_payload) (t_payload_loop src rl n its b) (t_payload_loop src rl n its' b))
      by (intros; apply rf_payload_loop; [apply le_n|assumption]).
    destruct (kind_eqb _ _).
    { apply fixes_less. apply (fixes_tight _ true false); [st|apply tight_semi, tight_node_name|st|]. intros nn. apply fixes_semi_then; [st|hu|intros _; apply IH|intros; apply L; reflexivity]. }
    destruct (kind_eqb _ _).
    { apply fixes_less. apply (fixes_tight _ true false); [st|apply tight_semi, tight_property_name|st|]. intros nn. apply fixes_semi_then; [st|hu|intros _; apply IH|intros; apply L; reflexivity]. }
    apply (fixes_tight _ false false); [st| |st|].
    { destruct (kind_eqb _ _); apply tight_semi; [apply tight_less, (tight_next _ false); [ti|st]|ti]. }
    intros [t1 o]. apply (fixes_tight _ false false); [st| |st|].
    { destruct (tk_kind t1); try (apply tight_semi; solve [ti]). apply tight_semi, (tight_bind _ false false); [st|st|apply tight_check|].
      intros _. apply tight_less, (tight_next _ false); [ti|st]. }
    intros [t2 lb]. destruct (tk_kind t2) eqn:E; try quiet.
    all: match type of E with _ = CloseBrace => idtac | _ => apply fixes_less end.
    all: match type of E with
      | _ = CloseBrace => apply fixes_semi_then; [st|hu|intros e; quiet|]; intros e e'; apply same_ret; reflexivity
      | _ => idtac end.
    apply fixes_peek_expect. intros t3. destruct (tk_kind t3) eqn:E3; try quiet.
    all: match type of E3 with
      | _ = Semicolon => apply (fixes_skip _ true); apply fixes_after; [st|st|]; intros _; apply fixes_after; [st|st|]; intros _; apply fixes_after; [st|st|]; intros _; apply IH
      | _ => idtac end.
    all: match type of E3 with
      | _ = OpenBrace =>
        apply fixes_after; [st|st|]; intros _; apply (fixes_expect _ true); intros _;
        apply (fixes_both _ _ (via bare_payload)); [st|st|apply IH|hu|intros pl; apply IH|]; intros pl pl' Hp; apply L; apply via_snoc; [reflexivity|];
        apply bare_node_eq; [reflexivity|exact Hp|reflexivity]
      | _ => idtac end.
    apply (fixes_skip _ true). apply fixes_after; [st|st|]. intros _. apply (fixes_tight _ true false); [st|apply values_tight|st|]. intros vs.
    apply fixes_semi_then; [st|hu| |].
    * intros e. apply fixes_after; [st|st|]. intros _. apply fixes_after; [st|st|]. intros _. apply IH.
    * intros e e'. eapply same_bind; [apply rf_check_omit; reflexivity|]. intros _ _ _. eapply same_bind; [apply rf_check_order|]. intros _ _ _.
      apply L. apply via_snoc; [reflexivity|]. apply bare_property_eq; reflexivity.
  Qed.
  Lemma fixes_node_payload n f : fixes f true (via bare_payload) (t_node_payload src rl n).
  Proof. unfold t_node_payload. apply (fixes_expect _ true). intros _. apply fixes_payload. Qed.
  Lemma fixes_primary n f : fixes f true (via bare_primary) (t_p_primary src incl rl n).
  Proof.
    unfold t_p_primary. apply (fixes_next _ false). intros t.
    assert (H1 : forall p, fixes None false (via bare_primary) (t_expect_semicolon src rl ;^ t_ret p)).
    { intros p. apply fixes_semi_then; [st|hu|intros e; quiet|]. intros e e'. apply same_ret. reflexivity. }
    destruct (tk_kind t) eqn:E; try quiet.
    all: try match goal with |- context [match ?d with MemReserve => _ | _ => _ end] => destruct d end; try quiet; try apply H1.
    - apply (fixes_both _ _ (via bare_payload)); [st|st|apply fixes_less, fixes_node_payload|hu|intros pl; quiet|]. intros pl pl' Hp. apply same_ret.
      unfold via in *. cbn [bare_primary bare_node]. rewrite Hp. reflexivity.
    - apply fixes_less. apply (fixes_tight _ true false); [st|apply tight_semi, tight_memreserve|st|]. intros x.
      apply fixes_less. apply (fixes_tight _ true false); [st|apply tight_semi, tight_memreserve|st|]. intros y. apply H1.
    - apply fixes_less. apply (fixes_tight _ true false); [st|apply tight_semi, tight_parse_reference|st|]. intros x. apply H1.
    - apply fixes_less. apply (fixes_tight _ true false); [st|apply tight_semi, tight_parse_reference|st|]. intros x. apply H1.
    - apply (fixes_tight _ false false); [st|apply tight_semi, tight_reference|st|]. intros w.
      apply (fixes_both _ _ (via bare_payload)); [st|st|apply fixes_less, fixes_node_payload|hu|intros pl; quiet|]. intros pl pl' Hp. apply same_ret.
      unfold via in *. cbn [bare_primary rn_reference rn_payload]. rewrite Hp. reflexivity.
  Qed.
  Lemma fixes_file_loop n : forall f acc, fixes f true (via (map bare_primary)) (t_file_loop src incl rl n acc).
  Proof.
    induction n as [|n IH]; intros f acc; cbn [t_file_loop]; [quiet|]. apply fixes_peek; [|st]. intros t.
    apply (fixes_both _ _ (via bare_primary)); [st|intros p; apply stab_file_loop|apply fixes_primary|intros p; apply hush_file_loop|intros p; apply IH|]. intros p p' Hp. apply rf_file_loop; [apply le_n|]. apply via_snoc; [reflexivity|exact Hp].
  Qed.
End Insert.

(** ** The whole file *)
Lemma loop_empties src incl rl n : forall acc s fs s1, t_file_loop src incl rl n acc s = TOk fs s1 -> t_toks s1 = [].
Proof.
  induction n as [|n IH]; intros acc s fs s1 E; [discriminate E|]. cbn [t_file_loop] in E. unfold t_bind at 1, t_peek in E. destruct (t_toks s) as [|t l] eqn:T; cbn [hd_error] in E.
  - injection E as _ <-. exact T.
  - unfold t_bind in E. destruct (t_p_primary src incl rl n s) as [p s2| |]; [|discriminate E|discriminate E]. exact (IH _ _ _ _ E).
Qed.
Lemma insert_file src incl rl n toks f s1 n1 d n2 : Forall known toks -> t_p_file src incl rl n (mkTS toks []) = TOk f s1 -> t_diags s1 = n1 ++ d :: n2 -> semi d ->
  exists pre post, toks = pre ++ post /\ pre <> [] /\ calm post /\ d = t_missing src post /\ forall c, tk_kind c = Semicolon ->
    exists f' s', t_p_file src incl rl n (mkTS (pre ++ c :: post) []) = TOk f' s' /\ map bare_primary (fl_elements f) = map bare_primary (fl_elements f')
      /\ Forall2 diag_eqv (n1 ++ n2) (t_diags s').
Proof.
  intros K E D Hd. unfold t_p_file, t_bind, t_source, t_ret in E |- *. destruct (t_file_loop src incl rl n [] (mkTS toks [])) as [fs s| |] eqn:L; [|discriminate E|discriminate E].
  injection E as <- <-. destruct (fixes_file_loop src incl rl n None [] toks [] fs s n1 d n2 I K L D Hd) as (pre & post & z & P0 & N & P1 & P2 & P3 & P4).
  exists pre, post. split; [exact P0|]. split; [exact (N eq_refl)|]. split; [apply P2; rewrite (loop_empties _ _ _ _ _ _ _ _ L); exact I|]. split; [exact P3|].
  intros c C. specialize (P4 c [] C (diags_refl [])). unfold eqv_res in P4. destruct (t_file_loop src incl rl n [] (mkTS (pre ++ c :: post) [])) as [fs' s'| |]; [|contradiction|contradiction].
  destruct P4 as (R & _ & _ & Dd). exists (mkFile fs' src), s'. split; [reflexivity|]. split; [exact R|exact Dd].
Qed.
