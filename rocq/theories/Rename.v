(** Renaming labels: the tree of a text whose labels are renamed is the renamed tree *)
From Verif Require Import Parser TokParser DisplayProofs NameProofs Grammar GrammarComplete Reformat.

Section Tree.
  Context (rho : str -> str).
  Definition ren_ref (r : reference) : reference := match r with RefLabel l => RefLabel (rho l) | RefPath p => RefPath p end.
  Definition ren_tref (r : tref) : tref := match r with TRefSimple l => TRefSimple (rho l) | TRefPath p => TRefPath p end.
  (** tokens keep their places *)
  Definition ren_kind (k : token_kind) : token_kind :=
    match k with
    | Label l => Label (rho l)
    | Ref r => Ref (ren_tref r)
    | _ => k
    end.
  Definition ren_w {A} (f : A -> A) (w : wtok A) : wtok A := mkWT (f (wt_item w)) (wt_tok w).
  Definition ren_cell (c : cell) : cell := match c with CReference r => CReference (ren_w ren_ref r) | _ => c end.
  Definition ren_value (v : prop_value) : prop_value :=
    match v with
    | PVCells o cs c => PVCells o (map ren_cell cs) c
    | PVReference r => PVReference (ren_w ren_ref r)
    | _ => v
    end.
  Definition ren_label (o : option (wtok str)) : option (wtok str) := option_map (ren_w rho) o.
  Definition ren_property (p : property) : property :=
    mkProp (ren_label (pr_label p)) (pr_name p) (map ren_value (pr_values p)) (pr_end p).
  Fixpoint ren_item (i : item) : item :=
    match i with
    | IProperty p => IProperty (ren_property p)
    | INode n => INode (ren_node n)
    | _ => i
    end
  with ren_node (n : node) : node :=
    match n with mkNode lb nm pl o => mkNode (ren_label lb) nm (ren_payload pl) o end
  with ren_payload (p : payload) : payload :=
    match p with
    | mkPayload its e =>
      mkPayload ((fix go (l : list item) : list item := match l with [] => [] | i :: r => ren_item i :: go r end) its) e
    end.
  Definition ren_primary (p : primary) : primary :=
    match p with
    | PDirective (ADeletedNode t r) => PDirective (ADeletedNode t (ren_w ren_ref r))
    | PDirective (AOmitIfNoRef t r) => PDirective (AOmitIfNoRef t (ren_w ren_ref r))
    | PRoot n => PRoot (ren_node n)
    | PReferencedNode r => PReferencedNode (mkRefNode (ren_w ren_ref (rn_reference r)) (ren_payload (rn_payload r)))
    | _ => p
    end.
  Lemma ren_payload_items its e : ren_payload (mkPayload its e) = mkPayload (map ren_item its) e.
  Proof. reflexivity. Qed.
End Tree.

Section Rename.
  Context (rho : str -> str) (src src' : fpath) (incl : list fpath) (rl rl' : position -> list token).

  (** no unknown characters (the only tokens after which the lexer changes its mode) *)
  Definition named (k : token_kind) : Prop :=
    match k with
    | Label l | Ref (TRefSimple l) => legal_label l /\ legal_label (rho l)
    | _ => True
    end.
  Definition known (t : token) : Prop := semicolon_skips (tk_kind t) = false /\ named (tk_kind t).
  Definition tok_ren (t t' : token) : Prop := tk_kind t' = ren_kind rho (tk_kind t).
  Definition eqv (s s' : tstate) : Prop :=
    Forall2 tok_ren (t_toks s) (t_toks s') /\ Forall known (t_toks s) /\ Forall2 diag_eqv (t_diags s) (t_diags s').
  Definition eqv_res {A} (R : A -> A -> Prop) (r r' : tres A) : Prop :=
    match r, r' with
    | TBad, _ | _, TBad => True
    | TOk a s, TOk a' s' => R a a' /\ eqv s s'
    | TErr d s, TErr d' s' => diag_eqv d d' /\ eqv s s'
    | _, _ => False
    end.
  Definition same {A} (R : A -> A -> Prop) (m m' : TM A) : Prop := forall s s', eqv s s' -> eqv_res R (m s) (m' s').
  Definition via {A B} (f g : A -> B) (a a' : A) : Prop := f a = g a'.
  Definition rb_ref (w : wtok reference) := bare (ren_w (ren_ref rho) w).
  Definition rb_cell (c : cell) := bare_cell (ren_cell rho c).
  Definition rb_value (v : prop_value) := bare_value (ren_value rho v).
  Definition rb_label (o : option (wtok str)) := option_map bare (ren_label rho o).
  Definition rb_item (i : item) := bare_item (ren_item rho i).
  Definition rb_payload (p : payload) := bare_payload (ren_payload rho p).
  Definition rb_primary (p : primary) := bare_primary (ren_primary rho p).
  Definition known_eqv (t t' : token) : Prop := tok_ren t t' /\ known t.
  Definition opt_eqv (o o' : option token) : Prop :=
    match o, o' with Some t, Some t' => known_eqv t t' | None, None => True | _, _ => False end.

  Lemma same_ret {A} (R : A -> A -> Prop) a a' : R a a' -> same R (t_ret a) (t_ret a').
  Proof. intros H s s' Hs. split; assumption. Qed.
  Lemma same_throw {A} (R : A -> A -> Prop) d d' : diag_eqv d d' -> same R (t_throw d) (t_throw d').
  Proof. intros H s s' Hs. split; assumption. Qed.
  Lemma same_bad {A} (R : A -> A -> Prop) m : same R (@t_no_fuel A) m.
  Proof. intros s s' Hs. exact I. Qed.
  Lemma same_bad_r {A} (R : A -> A -> Prop) m : same R m (@t_no_fuel A).
  Proof. intros s s' Hs. unfold eqv_res, t_no_fuel. destruct (m s); exact I. Qed.
  Lemma same_bind {A B} (R : A -> A -> Prop) (R' : B -> B -> Prop) m m' k k' :
    same R m m' -> (forall a a', R a a' -> same R' (k a) (k' a')) -> same R' (t_bind m k) (t_bind m' k').
  Proof.
    intros Hm Hk s s' Hs. specialize (Hm s s' Hs). unfold t_bind, eqv_res in *.
    destruct (m s), (m' s'); try contradiction; try exact I; try exact Hm.
    - destruct Hm as [Ha Hs']. exact (Hk _ _ Ha _ _ Hs').
    - destruct (k a s0); exact I.
  Qed.
  Lemma same_catch {A B} (R : A -> A -> Prop) (R' : B -> B -> Prop) m m' k k' g g' :
    same R m m' -> (forall a a', R a a' -> same R' (k a) (k' a')) ->
    (forall d d', diag_eqv d d' -> same R' (g d) (g' d')) -> same R' (t_catch m k g) (t_catch m' k' g').
  Proof.
    intros Hm Hk Hg s s' Hs. specialize (Hm s s' Hs). unfold t_catch, eqv_res in *.
    destruct (m s), (m' s'); try contradiction; try exact I.
    - destruct Hm as [Ha Hs']. exact (Hk _ _ Ha _ _ Hs').
    - destruct (k a s0); exact I.
    - destruct Hm as [Ha Hs']. exact (Hg _ _ Ha _ _ Hs').
    - destruct (g d s0); exact I.
  Qed.
  Lemma same_push d d' : diag_eqv d d' -> same eq (t_push d) (t_push d').
  Proof.
    intros H s s' (H1 & H2 & H3). split; [reflexivity|]. split; [exact H1|]. split; [exact H2|].
    apply Forall2_app; auto.
  Qed.
  Lemma same_peek : same opt_eqv t_peek t_peek.
  Proof.
    intros s s' Hs. split; [|exact Hs]. destruct Hs as (H1 & H2 & _). inversion H1; subst; cbn; [exact I|].
    split; [assumption|]. rewrite <- H in H2. inversion H2; assumption.
  Qed.
  Lemma same_next : same opt_eqv t_next t_next.
  Proof.
    intros s s' (H1 & H2 & H3). unfold t_next, eqv_res, eqv. cbn [t_toks t_diags].
    inversion H1 as [|t t' l l' Ht Hl E E']; cbn [hd_error tl opt_eqv].
    - auto.
    - rewrite <- E in H2. inversion H2; subst. split; [split; assumption|]. split; [exact Hl|]. split; assumption.
  Qed.

  Lemma same_push_opt d d' : match d, d' with Some d, Some d' => diag_eqv d d' | None, None => True | _, _ => False end ->
    same eq (t_push_opt d) (t_push_opt d').
  Proof. destruct d, d'; intros H; try contradiction; [apply same_push; exact H|apply same_ret; reflexivity]. Qed.
  Lemma same_any_bind {B} (R' : B -> B -> Prop) (m : TM position) k k' : same (fun _ _ => True) m m ->
    (forall a a', same R' (k a) (k' a')) -> same R' (t_bind m k) (t_bind m k').
  Proof. intros Hm Hk. eapply same_bind; [exact Hm|]. intros a a' _. apply Hk. Qed.
  Lemma same_cur_pos : same (fun _ _ => True) t_cur_pos t_cur_pos.
  Proof. apply same_ret. exact I. Qed.
  Lemma same_last_pos : same (fun _ _ => True) t_last_pos t_last_pos.
  Proof. apply same_ret. exact I. Qed.
  Lemma same_here : same (fun _ _ => True) t_here t_here.
  Proof. intros s s' Hs. split; [exact I|exact Hs]. Qed.
  Lemma same_source : same (fun _ _ => True) (t_source src) (t_source src').
  Proof. apply same_ret. exact I. Qed.
  Lemma same_incl : same eq (t_include_paths incl) (t_include_paths incl).
  Proof. apply same_ret. reflexivity. Qed.

  Definition via_fst {A B C} (f g : A -> B) (p p' : A * C) : Prop := f (fst p) = g (fst p').
  Definition tok_opt (o o' : option token) : Prop := (o = None <-> o' = None).
  (** the token and the token of an omit directive; the token and the label *)
  Definition omit_eqv (p p' : token * option token) : Prop :=
    known_eqv (fst p) (fst p') /\ option_map (fun _ => no_token) (snd p) = option_map (fun _ => no_token) (snd p').
  Definition label_eqv (p p' : token * option (wtok str)) : Prop :=
    known_eqv (fst p) (fst p') /\ rb_label (snd p) = option_map bare (snd p').

  Create HintDb rf.
  Lemma via_snoc {A B} (f g : A -> B) l l' a a' : map f l = map g l' -> via f g a a' -> map f (l ++ [a]) = map g (l' ++ [a']).
  Proof. intros E1 E2. rewrite !map_app, E1. cbn [map]. rewrite E2. reflexivity. Qed.
  Hint Resolve via_snoc : rf.
  Definition kept := known_eqv.
  Lemma kept_known t t' : kept t t' -> known_eqv t t'.
  Proof. exact (fun H => H). Qed.
  Hint Resolve kept_known : rf.
  Hint Resolve diag_eqv_expected diag_eqv_new diag_eqv_eof diag_eqv_int diag_eqv_from same_bad same_bad_r
    same_last_pos same_here same_cur_pos same_source same_incl same_peek same_next : rf.
  (** kinds the parser compares with *)
  Definition plain_kind (k : token_kind) : bool := match k with Label _ | Ref _ => false | _ => true end.
  Lemma ren_kind_eqb x k : plain_kind k = true -> kind_eqb (ren_kind rho x) k = kind_eqb x k.
  Proof.
    unfold kind_eqb. intros H. destruct (kind_eq_dec x k) as [->|N].
    - assert (E : ren_kind rho k = k) by (destruct k as [| | | | | | | | | | | | | | | | |[]| |]; try discriminate H; reflexivity).
      rewrite E. destruct (kind_eq_dec k k); congruence.
    - destruct (kind_eq_dec (ren_kind rho x) k) as [E|]; [|reflexivity]. exfalso. subst k. apply N.
      destruct x as [| | | | | | | | | | | | | | | | |[]| |]; try reflexivity; discriminate H.
  Qed.
  Lemma ren_show x : show_kind (ren_kind rho x) = show_kind x.
  Proof. destruct x as [| | | | | | | | | | | | | | | | |[]| |]; reflexivity. Qed.
  Lemma ren_expected sp sp' s s' x : diag_eqv (diag_expected sp s [x]) (diag_expected sp' s' [ren_kind rho x]).
  Proof. unfold diag_expected. rewrite ren_show. repeat split. Qed.
  Hint Resolve ren_expected : rf.
  Ltac bare_tac :=
    unfold via, via_fst, omit_eqv, label_eqv, rb_ref, rb_cell, rb_value, rb_label, rb_item in *; cbn [fst snd ren_ref ren_w ren_cell ren_value ren_label ren_property ren_item ren_node bare_cell bare_value bare_property bare_item bare_node bare wt_item
      pr_label pr_name pr_values option_map] in *;
    rewrite ?map_app; cbn [map]; repeat match goal with |- _ /\ _ => split end; try reflexivity; try assumption; try (apply kept_known; assumption); try congruence.
  Ltac rf_tac :=
    repeat first
      [ progress intros
      | match goal with
        | H : known_eqv ?a ?b |- _ =>
            let K := fresh "K" in let Kn := fresh "Kn" in
            pose proof H as [K Kn]; change (kept a b) in H; change (tk_kind b = ren_kind rho (tk_kind a)) in K; rewrite ?K
        | H : opt_eqv ?a ?b |- _ => destruct a, b; cbn [opt_eqv] in H; try contradiction H;
            [|clear H]
        | H : omit_eqv ?a ?b |- _ => destruct a, b; destruct H; cbn [fst snd] in *
        | H : label_eqv ?a ?b |- _ => destruct a, b; destruct H; cbn [fst snd] in *
        | H : (_, _) = (_, _) |- _ => injection H as <- <-
        | H : ?a = ?b |- _ => (is_var b; subst b) || (is_var a; subst a)
        | p : (_ * _)%type |- _ => destruct p
        end
      | apply same_ret; solve [reflexivity | exact I | apply kept_known; assumption | bare_tac]
      | apply same_throw; solve [auto with rf]
      | apply same_push; solve [auto with rf]
      | solve [auto with rf]
      | eapply same_bind; [apply same_push; solve [auto with rf]|]
      | eapply same_bind; [solve [eauto with rf]|]
      | match goal with
        | |- same _ (if kind_eqb ?x ?k then _ else _) (if kind_eqb (ren_kind rho ?x) ?k then _ else _) => rewrite (ren_kind_eqb x k) by (reflexivity || assumption); destruct (kind_eqb x k) eqn:?
        | |- same _ (match ?x with _ => _ end) _ => destruct x eqn:?; cbn [ren_kind]
        | |- same _ (if ?x then _ else _) _ => destruct x eqn:?
        end ].

  Lemma rf_expect_next : same known_eqv (t_expect_next src) (t_expect_next src').
  Proof. unfold t_expect_next. rf_tac. Qed.
  Lemma rf_peek_expect : same known_eqv (t_peek_expect src) (t_peek_expect src').
  Proof. unfold t_peek_expect. rf_tac. Qed.
  Lemma rf_expect k : plain_kind k = true -> same known_eqv (t_expect src k) (t_expect src' k).
  Proof. unfold t_expect. rf_tac. Qed.
  Lemma rf_skip_tok : same eq t_skip_tok t_skip_tok.
  Proof. unfold t_skip_tok. rf_tac. Qed.
  Hint Resolve rf_expect_next rf_peek_expect rf_expect rf_skip_tok : rf.
  Lemma rf_check_ident sp sp' s p1 p2 ctx : same eq (t_check_ident src sp s p1 p2 ctx) (t_check_ident src' sp' s p1 p2 ctx).
  Proof.
    unfold t_check_ident. eapply same_bind; [apply same_source|]. intros a a' _. apply same_push_opt.
    unfold check_ident_diag. destruct (find_bad p1 0 (chars s)) as [[i c]|]; [apply diag_eqv_new|].
    destruct (31 <? _); [apply diag_eqv_new|]. destruct (chars s); [apply diag_eqv_new|].
    destruct (p2 n); [exact I|apply diag_eqv_new].
  Qed.
  Hint Resolve rf_check_ident : rf.
  Lemma rf_check_is_label sp sp' s : same eq (t_check_is_label src sp s) (t_check_is_label src' sp' s).
  Proof. unfold t_check_is_label. rf_tac. Qed.
  Lemma rf_check_is_property_name sp sp' s : same eq (t_check_is_property_name src sp s) (t_check_is_property_name src' sp' s).
  Proof. unfold t_check_is_property_name. rf_tac. Qed.
  Lemma rf_check_is_node_name sp sp' s : same eq (t_check_is_node_name src sp s) (t_check_is_node_name src' sp' s).
  Proof. unfold t_check_is_node_name. rf_tac. Qed.
  Lemma rf_label sp sp' s s' : legal_label s -> legal_label s' -> same eq (t_check_is_label src sp s) (t_check_is_label src' sp' s').
  Proof.
    intros H H' [l d] [l' d'] Hs. destruct (runs_check_label src l sp s H d) as [E|E]; rewrite E; [exact I|].
    destruct (runs_check_label src' l' sp' s' H' d') as [E'|E']; rewrite E'; [exact I|]. split; [reflexivity|exact Hs].
  Qed.
  Hint Resolve rf_check_is_label rf_check_is_property_name rf_check_is_node_name : rf.
  Lemma rf_check_path sp sp' p : same eq (t_check_path src sp p) (t_check_path src' sp' p).
  Proof. induction p; cbn [t_check_path]; rf_tac. Qed.
  Hint Resolve rf_check_path : rf.
  Lemma rf_reference t t' r : known_eqv t t' -> tk_kind t = Ref r -> same (via rb_ref bare) (t_p_reference src t r) (t_p_reference src' t' (ren_tref rho r)).
  Proof.
    unfold t_p_reference. destruct r as [s|s]; cbn [ren_tref]; intros H E.
    - destruct H as (_ & _ & H). rewrite E in H. cbn [named] in H. destruct H as [H1 H2].
      eapply same_bind; [apply (rf_label _ _ _ _ H1 H2)|]. rf_tac.
    - eapply (same_bind eq); [destruct s; [apply same_push; repeat split|apply same_ret; reflexivity]|].
      rf_tac.
  Qed.
  Lemma rf_skip_expression f : forall f' d, same eq (t_skip_expression f d) (t_skip_expression f' d).
  Proof. induction f; intros [|f'] d; cbn [t_skip_expression]; rf_tac. Qed.
  Hint Resolve rf_reference rf_skip_expression : rf.
  Lemma rf_number_u32 f f' : same (via rb_cell bare_cell) (t_number_u32 src f) (t_number_u32 src' f').
  Proof.
    unfold t_number_u32. rf_tac.
  Qed.
  Lemma rf_memreserve_number : same (via bare bare) (t_memreserve_number src) (t_memreserve_number src').
  Proof. unfold t_memreserve_number. rf_tac. Qed.
  Lemma rf_byte_string : same (via bare bare) (t_byte_string src) (t_byte_string src').
  Proof. unfold t_byte_string. rf_tac. Qed.
  Lemma rf_skip_optional_label : same eq t_skip_optional_label t_skip_optional_label.
  Proof. unfold t_skip_optional_label. rf_tac. Qed.
  Hint Resolve rf_number_u32 rf_memreserve_number rf_byte_string rf_skip_optional_label : rf.
  Lemma rf_cells_loop f : forall f' acc acc', map rb_cell acc = map bare_cell acc' ->
    same (via_fst (map rb_cell) (map bare_cell)) (t_cells_loop src f acc) (t_cells_loop src' f' acc').
  Proof.
    induction f; intros [|f'] acc acc' Ha; cbn [t_cells_loop]; rf_tac.
    eapply same_catch; [apply rf_number_u32| |]; rf_tac.
  Qed.
  Lemma rf_bytes_loop f : forall f' acc acc', map bare acc = map bare acc' ->
    same (via_fst (map bare) (map bare)) (t_bytes_loop src f acc) (t_bytes_loop src' f' acc').
  Proof.
    induction f; intros [|f'] acc acc' Ha; cbn [t_bytes_loop]; rf_tac.
  Qed.
  Lemma rf_bits_prefix : same eq (t_bits_prefix src) (t_bits_prefix src').
  Proof. unfold t_bits_prefix. rf_tac. Qed.
  Hint Resolve rf_cells_loop rf_bytes_loop rf_bits_prefix : rf.
  Lemma rf_property_value f f' : same (via rb_value bare_value) (t_property_value src f) (t_property_value src' f').
  Proof.
    unfold t_property_value. rf_tac.
    apply same_ret. unfold via, via_fst, rb_value in *. cbn [fst ren_value bare_value] in *. rewrite map_map. unfold rb_cell in H0. rewrite H0. reflexivity.
  Qed.
  Hint Resolve rf_property_value : rf.
  Lemma rf_property_values f : forall f' acc acc', map rb_value acc = map bare_value acc' ->
    same (via (map rb_value) (map bare_value)) (t_property_values src f acc) (t_property_values src' f' acc').
  Proof.
    induction f; intros [|f'] acc acc' Ha; cbn [t_property_values]; rf_tac.
  Qed.
  Lemma rf_property_name : same (via bare bare) (t_p_property_name src) (t_p_property_name src').
  Proof. unfold t_p_property_name. rf_tac. Qed.
  Lemma rf_node_name : same (via bare bare) (t_p_node_name src) (t_p_node_name src').
  Proof. unfold t_p_node_name. rf_tac. Qed.
  Hint Resolve rf_property_values rf_property_name rf_node_name : rf.
  Lemma rf_expect_semicolon : same (fun _ _ => True) (t_expect_semicolon src rl) (t_expect_semicolon src' rl').
  Proof.
    unfold t_expect_semicolon. eapply same_bind; [apply same_peek|].
    intros [t|] [t'|] H; try contradiction H; [|rf_tac].
    destruct H as [K H]. unfold tok_ren in K. rewrite K. unfold known in H. destruct H as [H _].
    assert (Hn : same (fun _ _ => True) t_next t_next).
    { intros s s' Hs. pose proof (same_next s s' Hs) as X. unfold eqv_res in *. destruct (t_next s), (t_next s'); try contradiction; auto.
      destruct X. auto. }
    assert (H' : semicolon_skips (ren_kind rho (tk_kind t)) = false) by (destruct (tk_kind t) as [| | | | | | | | | | | | | | | | |[]| |]; exact H).
    destruct (tk_kind t) as [| | | | | | | | | | | | | | | | |[]| |]; cbn [ren_kind] in *; try exact Hn; rewrite ?H, ?H';
      (eapply (same_bind (fun _ _ => True)); [eapply same_bind; [apply same_here|intros; apply same_ret; exact I]|rf_tac]).
  Qed.
  Hint Resolve rf_expect_semicolon : rf.
  Definition omit_same (o o' : option token) : Prop := option_map (fun _ => no_token) o = option_map (fun _ => no_token) o'.
  Lemma rf_check_omit o o' : omit_same o o' -> same eq (t_check_omit src o) (t_check_omit src' o').
  Proof. unfold t_check_omit, omit_same. destruct o, o'; intros H; try discriminate H; rf_tac. Qed.
  Lemma rf_check_order n p p' : same eq (t_check_order src n p) (t_check_order src' n p').
  Proof. unfold t_check_order. rf_tac. Qed.
  Hint Resolve rf_check_omit rf_check_order : rf.
  Lemma bare_payload_eq its its' e e' : map rb_item its = map bare_item its' ->
    rb_payload (mkPayload its e) = bare_payload (mkPayload its' e').
  Proof. intros H. unfold rb_payload. rewrite ren_payload_items, !bare_payload_items, map_map. unfold rb_item in H. rewrite H. reflexivity. Qed.
  Hint Resolve bare_payload_eq : rf.
  Lemma bare_property_eq l l' s t t' vs vs' e e' : rb_label l = option_map bare l' ->
    map rb_value vs = map bare_value vs' ->
    via rb_item bare_item (IProperty (mkProp l (mkWT s t) vs e)) (IProperty (mkProp l' (mkWT s t') vs' e')).
  Proof. intros H H'. unfold via, rb_item, rb_label, rb_value in *. cbn [ren_item bare_item]. unfold ren_property, bare_property. cbn [pr_label pr_name pr_values]. rewrite map_map, H, H'. reflexivity. Qed.
  Lemma bare_node_eq l l' n t t' p p' o o' : rb_label l = option_map bare l' -> via rb_payload bare_payload p p' -> omit_same o o' ->
    via rb_item bare_item (INode (mkNode l (mkWT n t) p o)) (INode (mkNode l' (mkWT n t') p' o')).
  Proof.
    intros H H' Ho. unfold via, rb_item, rb_payload, rb_label in *. 
    change (INode (mkNode (option_map bare (ren_label rho l)) (bare (mkWT n t)) (bare_payload (ren_payload rho p)) (option_map (fun _ => no_token) o))
      = INode (mkNode (option_map bare l') (bare (mkWT n t')) (bare_payload p') (option_map (fun _ => no_token) o'))).
    rewrite H, H', Ho. reflexivity.
  Qed.
  Lemma rf_payload_loop f : forall f' items items' nd, map rb_item items = map bare_item items' ->
    same (via rb_payload bare_payload) (t_payload_loop src rl f items nd) (t_payload_loop src' rl' f' items' nd).
  Proof.
    induction f; intros [|f'] items items' nd Hi; cbn [t_payload_loop]; rf_tac;
      try (apply IHf, via_snoc; [exact Hi|bare_tac]).
    eapply (same_bind omit_eqv).
    { destruct (kind_eqb (tk_kind a') (Directive OmitIfNoRef)); rf_tac. }
    intros [t o] [t' o'] [Ht Ho]. cbn [fst snd] in *.
    eapply (same_bind label_eqv).
    { pose proof Ht as [K' N']. unfold tok_ren in K'. rewrite K'. pose proof Ht as Hk.
      destruct (tk_kind t) eqn:E; cbn [ren_kind]; try (rf_tac; fail).
      destruct N' as [_ N']. rewrite E in N'. cbn [named] in N'. destruct N' as [N1 N2].
      eapply same_bind; [apply (rf_label _ _ _ _ N1 N2)|]. rf_tac. }
    intros [t1 l] [t1' l'] [Ht1 Hl]. cbn [fst snd] in *. clear t t' Ht.
    change (omit_same o o') in Ho.
    rf_tac; try (apply same_ret; unfold via; apply bare_payload_eq; exact Hi);
      apply IHf, via_snoc; try exact Hi;
      first [apply bare_property_eq; [exact Hl|first [assumption|reflexivity]] | apply bare_node_eq; assumption].
  Qed.
  Hint Resolve rf_payload_loop : rf.
  Lemma rf_node_payload f f' : same (via rb_payload bare_payload) (t_node_payload src rl f) (t_node_payload src' rl' f').
  Proof. unfold t_node_payload. rf_tac. Qed.
  Lemma rf_parse_reference : same (via rb_ref bare) (t_parse_reference src) (t_parse_reference src').
  Proof. unfold t_parse_reference. rf_tac. Qed.
  Hint Resolve rf_node_payload rf_parse_reference : rf.
  Lemma rp_root n t t' p p' : via rb_payload bare_payload p p' ->
    via rb_primary bare_primary (PRoot (mkNode None (mkWT n t) p None)) (PRoot (mkNode None (mkWT n t') p' None)).
  Proof. intros H. unfold via, rb_payload in H. exact (f_equal (fun x => PRoot (mkNode None (mkWT n no_token) x None)) H). Qed.
  Lemma rp_opened w w' p p' : via rb_ref bare w w' -> via rb_payload bare_payload p p' ->
    via rb_primary bare_primary (PReferencedNode (mkRefNode w p)) (PReferencedNode (mkRefNode w' p')).
  Proof.
    intros Hw H. unfold via, rb_payload, rb_ref in *. transitivity (PReferencedNode (mkRefNode (bare (ren_w (ren_ref rho) w)) (bare_payload (ren_payload rho p)))); [reflexivity|].
    rewrite Hw, H. reflexivity.
  Qed.
  Lemma rp_delete w w' t t' : via rb_ref bare w w' -> via rb_primary bare_primary (PDirective (ADeletedNode t w)) (PDirective (ADeletedNode t' w')).
  Proof. intros H. exact (f_equal (fun x => PDirective (ADeletedNode no_token x)) H). Qed.
  Lemma rp_omit w w' t t' : via rb_ref bare w w' -> via rb_primary bare_primary (PDirective (AOmitIfNoRef t w)) (PDirective (AOmitIfNoRef t' w')).
  Proof. intros H. exact (f_equal (fun x => PDirective (AOmitIfNoRef no_token x)) H). Qed.
  Lemma rf_primary f f' : same (via rb_primary bare_primary) (t_p_primary src incl rl f) (t_p_primary src' incl rl' f').
  Proof.
    unfold t_p_primary. rf_tac.
    all: try (apply same_ret; first [apply rp_root; assumption|apply rp_opened; assumption|apply rp_delete; assumption|apply rp_omit; assumption]).
    - apply same_ret. unfold via, rb_primary in *. cbn [ren_primary bare_primary]. congruence.
    - eapply (same_bind eq); [|rf_tac]. rewrite (ren_kind_eqb (tk_kind t) Semicolon eq_refl). destruct (kind_eqb _ _); rf_tac.
  Qed.
  Hint Resolve rf_primary : rf.
  Lemma rf_file_loop f : forall f' acc acc', map rb_primary acc = map bare_primary acc' ->
    same (via (map rb_primary) (map bare_primary)) (t_file_loop src incl rl f acc) (t_file_loop src' incl rl' f' acc').
  Proof. induction f; intros [|f'] acc acc' Ha; cbn [t_file_loop]; rf_tac. Qed.
  Hint Resolve rf_file_loop : rf.
  Lemma rf_file f f' : same (via (fun x => map rb_primary (fl_elements x)) (fun x => map bare_primary (fl_elements x))) (t_p_file src incl rl f) (t_p_file src' incl rl' f').
  Proof. unfold t_p_file. rf_tac. Qed.
End Rename.
