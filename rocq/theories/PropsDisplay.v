(** C20-C22: displayed names, values and trees read back *)
From Verif Require Import Grammar Display NameProofs NumProofs LexerProofs LexerProofs2 LexerProofs3 GrammarComplete DisplayProofs.

(** ** C20 *)
(** a name that can be written: not empty, no '@' before the separator and no '/' *)
Definition writable (n : node_name) : Prop :=
  n <> mkNN [] None /\ ~ In cAt (nn_name n) /\ ~ In cSlash (nn_name n)
  /\ forall a, nn_addr n = Some a -> ~ In cSlash a.

Lemma writable_bare n : writable n -> bare_name n.
Proof.
  intros (H1 & H2 & H3 & H4). destruct n as [s o]. unfold bare_name, show_node_name. cbn [nn_name nn_addr] in *.
  split; [|split; [exact H2|]].
  - destruct s as [|c s]; [|discriminate]. destruct o as [a|]; [discriminate|congruence].
  - rewrite in_app_iff. intros [K|K]; [contradiction|]. destruct o as [a|]; [|destruct K].
    destruct K as [K|K]; [discriminate|]. exact (H4 a eq_refl K).
Qed.

Theorem C20_name_round_trip : forall n, ~ In cAt (nn_name n) -> node_name_of (show_node_name n) = n.
Proof. intros n H. apply node_text_iff, show_node_name_text, H. Qed.
Print Assumptions C20_name_round_trip.

Theorem C20_path_round_trip : forall p, Forall writable p -> npath_of (show_npath p) = p.
Proof.
  intros p H. apply path_text_iff, show_path_text. eapply Forall_impl; [|exact H]. exact writable_bare.
Qed.
Print Assumptions C20_path_round_trip.

(** The other way round: the display is one fixed spelling of what was parsed; parsing it again gives
    the same path, for every text. *)
Theorem C20_text_normal : forall s, npath_of (show_npath (npath_of s)) = npath_of s.
Proof.
  intros s. apply C20_path_round_trip. rewrite Forall_forall. intros n Hn. unfold npath_of in Hn.
  apply in_map_iff in Hn. destruct Hn as (c & <- & Hc). apply filter_In in Hc. destruct Hc as [Hc Hne].
  assert (Hs : ~ In cSlash c).
  { revert c Hc Hne. clear. induction s as [|a s IH]; intros c Hc Hne.
    - cbn [split_on In] in Hc. destruct Hc as [<-|[]]. intros [].
    - cbn [split_on] in Hc. destruct (a =? cSlash) eqn:E.
      + destruct Hc as [<-|Hc]; [intros []|]. apply IH; assumption.
      + destruct (split_on cSlash s) as [|p l] eqn:Es; [destruct (split_on_cons _ _ Es)|].
        destruct Hc as [<-|Hc].
        * intros [->|K]; [discriminate E|]. revert K.
          destruct p as [|x p]; [intros []|]. apply IH; [left; reflexivity|reflexivity].
        * apply IH; [right; exact Hc|exact Hne]. }
  assert (Hn0 : c <> []).
  { intros ->. discriminate Hne. }
  unfold node_name_of. destruct (split_once cAt c) as [[p q]|] eqn:E.
  - apply split_once_some in E. destruct E as [-> E]. rewrite !in_app_iff in Hs. repeat split; cbn [nn_name nn_addr]; try tauto.
    + discriminate.
    + intros a Ha. injection Ha as <-. tauto.
  - apply split_once_none in E. repeat split; cbn [nn_name nn_addr]; auto; [intros K; injection K as K; contradiction|discriminate].
Qed.
Print Assumptions C20_text_normal.

Example C20_example :
  let p := npath_of (bs "//soc/uart@10,2//") in
  p = [mkNN (bs "soc") None; mkNN (bs "uart") (Some (bs "10,2"))] /\ Forall writable p
  /\ show_npath p = bs "/soc/uart@10,2" /\ show_npath [] = bs "/".
Proof.
  cbv zeta. split; [reflexivity|]. split; [|split; reflexivity].
  repeat constructor; cbn [nn_name nn_addr]; try discriminate;
    try (intros K; vm_compute in K; repeat (destruct K as [K|K]; [discriminate K|]); exact K).
  intros a Ha. assert (E : bs "10,2" = a) by exact (f_equal (fun o => match o with Some x => x | None => a end) Ha). subst a.
  intros K. vm_compute in K. repeat (destruct K as [K|K]; [discriminate K|]). exact K.
Qed.
(** the conditions are needed: a component that is empty is lost, a '@' in the name moves the border *)
Example C20_conditions_needed :
  npath_of (show_npath [mkNN [] None]) = [] /\ node_name_of (show_node_name (mkNN (bs "a@b") (Some (bs "c")))) = mkNN (bs "a") (Some (bs "b@c")).
Proof. split; reflexivity. Qed.

(** ** Bodies *)
Fixpoint show_items (l : list item) : str :=
  match l with [] => [] | i :: r => bs "    " ++ show_item i ++ nl ++ show_items r end.
Lemma show_payload_items its e : show_payload (mkPayload its e) = bs "{" ++ nl ++ show_items its ++ bs "};".
Proof. reflexivity. Qed.

Definition prop_ok (p : property) : Prop :=
  pr_label p = None /\ legal_property_name (wt_item (pr_name p))
  /\ (exists c r, wt_item (pr_name p) = c :: r /\ name_start NameExpected c) /\ Forall value_ok (pr_values p).
(** properties before nodes, no omit flags, no deleted items *)
Inductive items_ok : bool -> list item -> Prop :=
| io_nil seen : items_ok seen []
| io_property p r : prop_ok p -> items_ok false r -> items_ok false (IProperty p :: r)
| io_node seen lb nm its e r : label_fine lb -> legal_node_name (wt_item nm) ->
    items_ok false its -> items_ok true r -> items_ok seen (INode (mkNode lb nm (mkPayload its e) None) :: r)
with label_fine : option (wtok str) -> Prop :=
| ll_none : label_fine None
| ll_some w : legal_label (wt_item w) -> label_fine (Some w).

Lemma sd_node_name n ks t : legal_node_name n -> name_stop t -> spelled NameExpected ks t ->
  spelled NameExpected (Ident (show_node_name n) :: ks) (show_node_name n ++ t).
Proof.
  intros H Hd Ht. destruct (legal_node_chars n H) as (H1 & (c & r & E & Hc) & H3).
  assert (Hs : name_start NameExpected c) by (unfold name_start; tauto).
  assert (Hn : Forall name_char (nn_name n)) by (eapply Forall_impl; [|exact H1]; exact node_char_name).
  destruct n as [s o]. unfold show_node_name. cbn [nn_name nn_addr] in *. subst s. destruct o as [a|].
  - destruct (H3 a eq_refl) as [_ Ha]. assert (Ha2 : Forall name_char a) by (eapply Forall_impl; [|exact Ha]; exact node_char_name).
    apply (sd_tok NameExpected (Ident ((c :: r) ++ [cAt] ++ a)) ((c :: r) ++ [cAt] ++ a)); [| |exact Ht].
    + apply sp_name_at; [exact Hs|exact Hn|exact Ha2|]. intros x q K. eapply name_stop_not; eassumption.
    + apply Forall_app. split; [eapply Forall_impl; [|exact Hn]; exact name_char_ascii|].
      constructor; [reflexivity|]. eapply Forall_impl; [|exact Ha2]. exact name_char_ascii.
  - rewrite app_nil_r. apply sd_name; [exists c, r; auto|exact Hn|exact Hd|exact Ht].
Qed.

Lemma property_reads p : prop_ok p ->
  reads NameExpected (show_property p) (fun _ => True)
    (fun toks => exists p', bare_property p' = bare_property p
       /\ forall l its l' n, g_items false l its l' n -> g_items false (toks ++ l) (IProperty p' :: its) l' n).
Proof.
  destruct p as [lb [s tk] vs e]. unfold prop_ok, show_property. cbn [pr_label pr_name pr_values wt_item].
  intros (-> & Hn & Hs & Hv). assert (Hc : Forall name_char s) by (destruct Hn; assumption).
  destruct vs as [|v vs].
  - exists [Ident s; Semicolon]. split.
    + intros ks t _ Ht. rewrite <- !app_assoc. cbn [app]. apply sd_name; [exact Hs|exact Hc|apply name_stop_cons; cbn [In]; auto|].
      change (bs ";" ++ nl ++ t) with (cSemi :: cNL :: t). punct. cbn [mode_after]. apply sd_nl. exact Ht.
    + intros toks Hk. apply kinds_cons in Hk. destruct Hk as (t & r & -> & Ht & Hk).
      apply kinds_cons in Hk. destruct Hk as (t2 & r2 & -> & Ht2 & Hk). apply kinds_nil in Hk. subst r2.
      exists (mkProp None (mkWT s t) [] t2). split; [reflexivity|]. intros l its l' n H. cbn [app].
      eapply gi_empty_property; [constructor|exact Ht|exact Hn|exact Ht2|exact H].
  - destruct (values_reads (v :: vs) Hv) as (k & S1 & R1); [discriminate|].
    remember (join (bs ", ") (map show_value (v :: vs))) as w. remember (v :: vs) as vs0 eqn:Evs.
    exists (Ident s :: Equal :: k ++ [Semicolon]). split.
    + intros ks t _ Ht. rewrite <- !app_assoc. cbn [app]. apply sd_name; [exact Hs|exact Hc|apply name_stop_cons; cbn [In]; auto|].
      change (bs " = " ++ w ++ bs ";" ++ nl ++ t) with (cSpace :: cEq :: cSpace :: w ++ (cSemi :: cNL :: t)).
      apply sd_space. punct. cbn [mode_after]. apply sd_space. rewrite <- app_assoc.
      apply S1; [apply stop_cons; cbn [In]; auto|]. cbn [app]. punct. cbn [mode_after]. apply sd_nl. exact Ht.
    + intros toks Hk. apply kinds_cons in Hk. destruct Hk as (t & r & -> & Ht & Hk).
      apply kinds_cons in Hk. destruct Hk as (t2 & r2 & -> & Ht2 & Hk).
      apply kinds_app in Hk. destruct Hk as (a & b & -> & Ha & Hb).
      apply kinds_cons in Hb. destruct Hb as (t3 & r3 & -> & Ht3 & Hb). apply kinds_nil in Hb. subst r3.
      destruct (R1 a Ha) as (vs' & E & G). exists (mkProp None (mkWT s t) vs' t3).
      split; [unfold bare_property; cbn [pr_label pr_name pr_values option_map]; rewrite E; reflexivity|].
      intros l its l' n H. cbn [app]. rewrite <- app_assoc. cbn [app]. change n with (0 + n)%nat.
      change t3 with (last_token (Some t3) t2) at 2.
      eapply gi_property; [constructor|exact Ht|exact Hn|exact Ht2|apply G; exact Ht3|apply ge_semicolon; exact Ht3|exact H].
Qed.

(** a body from its opening brace *)
Definition body_tokens (pl : payload) (toks : list token) : Prop :=
  exists b r pl', toks = b :: r /\ is OpenBrace b /\ bare_payload pl' = bare_payload pl
    /\ forall l, g_body (r ++ l) pl' l 0.
Definition items_tokens (seen : bool) (its : list item) (toks : list token) : Prop :=
  exists its', map bare_item its' = map bare_item its /\ forall l, g_items seen (toks ++ l) its' l 0.

Lemma body_reads its e :
  reads NameExpected (show_items its) (fun _ => True) (items_tokens false its) ->
  reads NameExpected (show_payload (mkPayload its e)) (fun _ => True) (body_tokens (mkPayload its e)).
Proof.
  intros (k & S1 & R1). exists (OpenBrace :: k ++ [CloseBrace; Semicolon]). split.
  - intros ks t _ Ht. rewrite show_payload_items.
    change ((bs "{" ++ nl ++ show_items its ++ bs "};") ++ t) with (cLBrace :: cNL :: (show_items its ++ bs "};") ++ t).
    rewrite <- app_assoc. cbn [app]. punct. cbn [mode_after]. apply sd_nl. rewrite <- app_assoc. apply S1; [exact I|].
    change (bs "};" ++ t) with (cRBrace :: cSemi :: t). punct. cbn [mode_after]. cbn [app]. punct. exact Ht.
  - intros toks Hk. apply kinds_cons in Hk. destruct Hk as (b & r & -> & Hb & Hk).
    apply kinds_app in Hk. destruct Hk as (a & c & -> & Ha & Hc).
    apply kinds_cons in Hc. destruct Hc as (t2 & r2 & -> & Ht2 & Hc).
    apply kinds_cons in Hc. destruct Hc as (t3 & r3 & -> & Ht3 & Hc). apply kinds_nil in Hc. subst r3.
    destruct (R1 a Ha) as (its' & E & G). exists b, (a ++ [t2; t3]), (mkPayload its' t3).
    split; [reflexivity|]. split; [exact Hb|]. split; [rewrite !bare_payload_items, E; reflexivity|].
    intros l. rewrite <- app_assoc. cbn [app]. change 0%nat with (0 + 0)%nat.
    change t3 with (last_token (Some t3) t2) at 2.
    eapply gbo; [apply G|constructor|constructor|exact Ht2|apply ge_semicolon; exact Ht3].
Qed.

Lemma label_start_letter s : legal_label s -> exists c r, s = c :: r /\ name_start NameExpected c.
Proof. intros (_ & _ & c & r & -> & H). exists c, r. split; [reflexivity|]. unfold name_start. tauto. Qed.
Lemma label_char_name c : label_char c -> name_char c.
Proof. unfold label_char, name_char. cbn [In]. intros [H|[H|H]]; [tauto|tauto|]. right. right. right. right. left. symmetry. exact H. Qed.

Lemma items_reads seen its : items_ok seen its ->
  reads NameExpected (show_items its) (fun _ => True) (items_tokens seen its).
Proof.
  induction 1 as [seen|p r Hp Hr (k2 & S2 & R2)|seen lb nm its e r Hl Hn Hi IHi Hr (k2 & S2 & R2)].
  - exists []. split; [intros ks t _ Ht; exact Ht|]. intros toks Hk. apply kinds_nil in Hk. subst toks.
    exists []. split; [reflexivity|]. intros l. constructor.
  - destruct (property_reads p Hp) as (k1 & S1 & R1). exists (k1 ++ k2). split.
    + intros ks t _ Ht. cbn [show_items show_item]. rewrite <- !app_assoc.
      do 4 (cbn [app]; apply sd_space). apply S1; [exact I|]. cbn [app nl]. apply sd_nl. apply S2; [exact I|exact Ht].
    + intros toks Hk. apply kinds_app in Hk. destruct Hk as (a & b & -> & Ha & Hb).
      destruct (R1 a Ha) as (p' & E1 & G1). destruct (R2 b Hb) as (its' & E2 & G2).
      exists (IProperty p' :: its'). split; [cbn [map bare_item]; rewrite E1, E2; reflexivity|].
      intros l. rewrite <- app_assoc. apply G1, G2.
  - destruct (body_reads its e IHi) as (kb & Sb & Rb).
    destruct nm as [nm tk]. cbn [wt_item] in Hn.
    assert (Hname : node_text (show_node_name nm) nm).
    { apply show_node_name_text. apply legal_bare in Hn. apply Hn. }
    assert (S3 : forall ks t, spelled NameExpected ks t -> spelled NameExpected (Ident (show_node_name nm) :: kb ++ k2 ++ ks)
        (show_node_name nm ++ bs " " ++ show_payload (mkPayload its e) ++ nl ++ show_items r ++ t)).
    { intros ks t Ht. apply sd_node_name; [exact Hn|apply name_stop_cons; cbn [In]; auto|]. cbn [app]. apply sd_space.
      apply Sb; [exact I|]. cbn [app nl]. apply sd_nl. apply S2; [exact I|exact Ht]. }
    assert (R3 : forall toks, map tk_kind toks = Ident (show_node_name nm) :: kb ++ k2 ->
       exists t b ra pl' its' c, toks = t :: b :: ra ++ c /\ is (Ident (show_node_name nm)) t /\ is OpenBrace b
         /\ bare_payload pl' = bare_payload (mkPayload its e) /\ (forall l, g_body (ra ++ l) pl' l 0)
         /\ map bare_item its' = map bare_item r /\ forall l, g_items true (c ++ l) its' l 0).
    { intros toks Hk. apply kinds_cons in Hk. destruct Hk as (t & q & -> & Ht & Hk).
      apply kinds_app in Hk. destruct Hk as (a & c & -> & Ha & Hc).
      destruct (Rb a Ha) as (b & ra & pl' & -> & Hb & E & G). destruct (R2 c Hc) as (its' & E2 & G2).
      exists t, b, ra, pl', its', c. repeat split; assumption. }
    assert (Eshow : forall t, show_items (INode (mkNode lb (mkWT nm tk) (mkPayload its e) None) :: r) ++ t
        = bs "    " ++ match lb with Some l => wt_item l ++ bs ": " | None => [] end
          ++ show_node_name nm ++ bs " " ++ show_payload (mkPayload its e) ++ nl ++ show_items r ++ t).
    { intros t. cbn [show_items show_item show_node wt_item]. rewrite <- !app_assoc. reflexivity. }
    destruct Hl as [|[s lt] Hl].
    + exists (Ident (show_node_name nm) :: kb ++ k2). split.
      * intros ks t _ Ht. rewrite Eshow. do 4 (cbn [app]; apply sd_space). rewrite <- app_assoc. apply S3. exact Ht.
      * intros toks Hk. destruct (R3 toks Hk) as (t & b & ra & pl' & its' & c & -> & Ht & Hb & E & G & E2 & G2).
        exists (INode (mkNode None (mkWT nm t) pl' None) :: its'). split.
        { cbn [map bare_item bare_node option_map]. rewrite E, E2. reflexivity. }
        intros l. cbn [app]. rewrite <- app_assoc. change 0%nat with (0 + 0)%nat.
        eapply gi_node; [constructor|constructor|exact Ht|exact Hname|exact Hn|exact Hb|apply G|apply G2].
    + cbn [wt_item] in *. exists (Label s :: Ident (show_node_name nm) :: kb ++ k2). split.
      * intros ks t _ Ht. rewrite Eshow. do 4 (cbn [app]; apply sd_space). destruct (label_start_letter s Hl) as (c & q & -> & Hs).
        assert (Hc : Forall name_char (c :: q)).
        { destruct Hl as (_ & Hl & _). eapply Forall_impl; [|exact Hl]. exact label_char_name. }
        match goal with |- spelled _ _ (((c :: q) ++ bs ": ") ++ ?w) =>
          replace (((c :: q) ++ bs ": ") ++ w) with (((c :: q) ++ [cColon]) ++ (cSpace :: w)) by (rewrite <- !app_assoc; reflexivity) end.
        apply (sd_tok NameExpected (Label (c :: q))); [apply sp_label; assumption| |].
        { apply Forall_app. split; [eapply Forall_impl; [|exact Hc]; exact name_char_ascii|]. constructor; [reflexivity|constructor]. }
        cbn [mode_after]. apply sd_space. cbn [app]. rewrite <- app_assoc. apply S3. exact Ht.
      * intros toks Hk. apply kinds_cons in Hk. destruct Hk as (t0 & q & -> & Ht0 & Hk).
        destruct (R3 q Hk) as (t & b & ra & pl' & its' & c & -> & Ht & Hb & E & G & E2 & G2).
        exists (INode (mkNode (Some (mkWT s t0)) (mkWT nm t) pl' None) :: its'). split.
        { cbn [map bare_item bare_node option_map]. rewrite E, E2. reflexivity. }
        intros l. cbn [app]. rewrite <- app_assoc. change 0%nat with (0 + 0)%nat.
        eapply gi_node; [constructor|constructor; [exact Ht0|exact Hl]|exact Ht|exact Hname|exact Hn|exact Hb|apply G|apply G2].
Qed.

(** ** Files *)
Definition primary_ok (incl : list fpath) (p : primary) : Prop :=
  match p with
  | PDirective (ADtsHeader _) | PDirective (APlugin _) => True
  | PDirective (AMemreserve _ _) | PCStyleInclude _ => False
  | PDirective (AInclude i) => Forall plain_char (wt_item (in_file_name i)) /\ in_paths i = incl
  | PDirective (ADeletedNode _ r) | PDirective (AOmitIfNoRef _ r) => ref_ok (wt_item r)
  | PRoot n => nd_label n = None /\ wt_item (nd_name n) = mkNN (bs "/") None /\ nd_omit n = None
               /\ items_ok false (pl_items (nd_payload n))
  | PReferencedNode r => ref_ok (wt_item (rn_reference r)) /\ items_ok false (pl_items (rn_payload r))
  end.

Lemma sd_directive m s d ks t : In (s, d) known_directives -> spelled m ks t ->
  spelled m (Directive d :: ks) (([cSlash] ++ s ++ [cSlash]) ++ t).
Proof.
  intros H Ht.
  assert (G : exists c r, s = c :: r /\ letter c /\ ~ In cSlash s /\ Forall (fun c => c < 128) s).
  { cbn [known_directives In] in H.
    repeat (destruct H as [H|H]; [injection H as <- _; eexists; eexists; split; [reflexivity|];
      split; [apply is_alpha_spec; reflexivity|]; split;
      [intros K; vm_compute in K; repeat (destruct K as [K|K]; [discriminate K|]); exact K|repeat constructor]|]). destruct H. }
  destruct G as (c & r & -> & Hc & Hn & Ha). apply (sd_tok m (Directive d)); [| |exact Ht].
  - apply sp_directive; [exact Hc|exact Hn|]. left. exact H.
  - constructor; [reflexivity|]. apply Forall_app. split; [exact Ha|]. constructor; [reflexivity|constructor].
Qed.

(** the tokens of an element; none begins with a semicolon *)
Definition primary_tokens (incl : list fpath) (p : primary) (toks : list token) : Prop :=
  (exists t r, toks = t :: r /\ ~ is Semicolon t)
  /\ exists p', bare_primary p' = bare_primary p
     /\ forall l, (forall u r, l = u :: r -> ~ is Semicolon u) -> g_primary incl (toks ++ l) p' l 0.

Ltac take Hk t Ht := let r := fresh "r" in apply kinds_cons in Hk; destruct Hk as (t & r & -> & Ht & Hk).
Ltac not_semicolon Ht := unfold is in *; rewrite Ht; discriminate.

Lemma primary_reads incl p : primary_ok incl p ->
  reads NameExpected (show_primary p ++ nl) (fun _ => True) (primary_tokens incl p).
Proof.
  destruct p as [[t0|t0|a0 b0|[t0 [s st] ip]|t0 [r rt]|t0 [r rt]]|[lb [nm nt] [its e] o]|[[r rt] [its e]]|s];
    cbn [primary_ok wt_item in_file_name in_paths nd_label nd_name nd_payload nd_omit pl_items rn_reference rn_payload]; intros H;
    try contradiction.
  - exists [Directive DTSVersionHeader; Semicolon]. split.
    + intros ks t _ Ht. apply (sd_directive NameExpected (bs "dts-v1")); [cbn [known_directives In]; auto|].
      change (cSemi :: cNL :: t) with ([cSemi] ++ [cNL] ++ t). punct. apply sd_nl. exact Ht.
    + intros toks Hk. take Hk t Ht. take Hk t2 Ht2. apply kinds_nil in Hk. subst.
      split; [exists t, [t2]; split; [reflexivity|not_semicolon Ht]|]. exists (PDirective (ADtsHeader t)).
      split; [reflexivity|]. intros l _. eapply gp_header; [exact Ht|apply ge_semicolon; exact Ht2].
  - exists [Directive Plugin; Semicolon]. split.
    + intros ks t _ Ht. apply (sd_directive NameExpected (bs "plugin")); [cbn [known_directives In]; auto|].
      punct. apply sd_nl. exact Ht.
    + intros toks Hk. take Hk t Ht. take Hk t2 Ht2. apply kinds_nil in Hk. subst.
      split; [exists t, [t2]; split; [reflexivity|not_semicolon Ht]|]. exists (PDirective (APlugin t)).
      split; [reflexivity|]. intros l _. eapply gp_plugin; [exact Ht|apply ge_semicolon; exact Ht2].
  - destruct H as [H ->]. destruct (plain_body s H) as [H1 H2]. exists [Directive Include; TString s]. split.
    + intros ks t _ Ht. cbn [show_primary show_any_directive]. unfold show_include. cbn [in_file_name wt_item].
      replace (((bs "/include/ """ ++ s ++ bs """") ++ nl) ++ t)
        with (([cSlash] ++ bs "include" ++ [cSlash]) ++ cSpace :: ([cQuote] ++ s ++ [cQuote]) ++ cNL :: t)
        by (cbn [app]; rewrite <- !app_assoc; reflexivity).
      apply sd_directive; [cbn [known_directives In]; auto 12|]. apply sd_space.
      apply (sd_tok NameExpected (TString s)); [apply sp_string; exact H1| |apply sd_nl; exact Ht].
      constructor; [reflexivity|]. apply Forall_app. split; [exact H2|]. constructor; [reflexivity|constructor].
    + intros toks Hk. take Hk t Ht. take Hk t2 Ht2. apply kinds_nil in Hk. subst.
      split; [exists t, [t2]; split; [reflexivity|not_semicolon Ht]|]. exists (PDirective (AInclude (mkInclude t (mkWT s t2) incl))).
      split; [reflexivity|]. intros l Hl. apply gp_include; assumption.
  - destruct (ref_reads r H) as (k & x & S1 & H2 & ->). exists [Directive DeleteNode; Ref k; Semicolon]. split.
    + intros ks t _ Ht. cbn [show_primary show_any_directive wt_item].
      replace (((bs "/delete-node/ " ++ show_reference r ++ bs ";") ++ nl) ++ t)
        with (([cSlash] ++ bs "delete-node" ++ [cSlash]) ++ cSpace :: show_reference r ++ cSemi :: cNL :: t)
        by (cbn [app]; rewrite <- !app_assoc; reflexivity).
      apply sd_directive; [cbn [known_directives In]; auto 12|]. apply sd_space.
      apply S1; [apply stop_cons; member|]. punct. apply sd_nl. exact Ht.
    + intros toks Hk. take Hk t Ht. take Hk t2 Ht2. take Hk t3 Ht3. apply kinds_nil in Hk. subst.
      split; [exists t, [t2; t3]; split; [reflexivity|not_semicolon Ht]|]. exists (PDirective (ADeletedNode t (mkWT r t2))).
      split; [reflexivity|]. intros l _. eapply gp_delete_node; [exact Ht|exact Ht2|exact H2|apply ge_semicolon; exact Ht3].
  - destruct (ref_reads r H) as (k & x & S1 & H2 & ->). exists [Directive OmitIfNoRef; Ref k; Semicolon]. split.
    + intros ks t _ Ht. cbn [show_primary show_any_directive wt_item].
      replace (((bs "/omit-if-no-ref/ " ++ show_reference r ++ bs ";") ++ nl) ++ t)
        with (([cSlash] ++ bs "omit-if-no-ref" ++ [cSlash]) ++ cSpace :: show_reference r ++ cSemi :: cNL :: t)
        by (cbn [app]; rewrite <- !app_assoc; reflexivity).
      apply sd_directive; [cbn [known_directives In]; auto 12|]. apply sd_space.
      apply S1; [apply stop_cons; member|]. punct. apply sd_nl. exact Ht.
    + intros toks Hk. take Hk t Ht. take Hk t2 Ht2. take Hk t3 Ht3. apply kinds_nil in Hk. subst.
      split; [exists t, [t2; t3]; split; [reflexivity|not_semicolon Ht]|]. exists (PDirective (AOmitIfNoRef t (mkWT r t2))).
      split; [reflexivity|]. intros l _. eapply gp_omit; [exact Ht|exact Ht2|exact H2|apply ge_semicolon; exact Ht3].
  - destruct H as (-> & -> & -> & H). destruct (body_reads its e (items_reads _ _ H)) as (k & S1 & R1).
    exists (Slash :: k). split.
    + intros ks t _ Ht. cbn [show_primary show_node wt_item].
      replace ((([] ++ show_node_name (mkNN (bs "/") None) ++ bs " " ++ show_payload (mkPayload its e)) ++ nl) ++ t)
        with (cSlash :: cSpace :: show_payload (mkPayload its e) ++ cNL :: t)
        by (rewrite <- !app_assoc; reflexivity).
      apply (sd_tok NameExpected Slash [cSlash]); [|constructor; [reflexivity|constructor]|].
      * apply sp_slash. intros x q E. injection E as <- _. split; [discriminate|]. split; [discriminate|]. unfold letter. lia.
      * cbn [mode_after]. apply sd_space. apply S1; [exact I|]. apply sd_nl. exact Ht.
    + intros toks Hk. take Hk t Ht. destruct (R1 _ Hk) as (b & q & pl' & -> & Hb & E & G).
      split; [exists t, (b :: q); split; [reflexivity|not_semicolon Ht]|].
      exists (PRoot (mkNode None (mkWT (mkNN (bs "/") None) t) pl' None)).
      split; [cbn [bare_primary bare_node]; rewrite E; reflexivity|]. intros l _. cbn [app]. apply gp_root; [exact Ht|exact Hb|apply G].
  - destruct H as [Hr H]. destruct (ref_reads r Hr) as (kr & x & Sr & H2 & ->).
    destruct (body_reads its e (items_reads _ _ H)) as (k & S1 & R1). exists (Ref kr :: k). split.
    + intros ks t _ Ht. cbn [show_primary]. unfold show_ref_node. cbn [rn_reference rn_payload wt_item].
      replace (((show_reference r ++ bs " " ++ show_payload (mkPayload its e)) ++ nl) ++ t)
        with (show_reference r ++ cSpace :: show_payload (mkPayload its e) ++ cNL :: t)
        by (rewrite <- !app_assoc; reflexivity).
      cbn [app]. apply Sr; [apply stop_cons; member|]. apply sd_space. apply S1; [exact I|]. apply sd_nl. exact Ht.
    + intros toks Hk. take Hk t Ht. destruct (R1 _ Hk) as (b & q & pl' & -> & Hb & E & G).
      split; [exists t, (b :: q); split; [reflexivity|not_semicolon Ht]|].
      exists (PReferencedNode (mkRefNode (mkWT r t) pl')).
      split; [cbn [bare_primary rn_reference rn_payload]; rewrite E; reflexivity|]. intros l _. cbn [app].
      eapply gp_ref_node; [exact Ht|exact H2|exact Hb|apply G].
Qed.

Lemma file_reads incl ps : Forall (primary_ok incl) ps ->
  exists ks, spelled NameExpected ks (concat (map (fun p => show_primary p ++ nl) ps))
    /\ forall toks, map tk_kind toks = ks ->
       (forall u r, toks = u :: r -> ~ is Semicolon u)
       /\ exists ps', map bare_primary ps' = map bare_primary ps /\ derives incl toks ps'.
Proof.
  induction 1 as [|p ps Hp _ (k2 & S2 & R2)].
  - exists []. split; [constructor|]. intros toks Hk. apply kinds_nil in Hk. subst. split; [discriminate|].
    exists []. split; [reflexivity|constructor].
  - destruct (primary_reads incl p Hp) as (k1 & S1 & R1). exists (k1 ++ k2). split.
    + cbn [map concat]. apply S1; [exact I|exact S2].
    + intros toks Hk. apply kinds_app in Hk. destruct Hk as (a & b & -> & Ha & Hb).
      destruct (R1 a Ha) as ((t & r & -> & Ht) & p' & E1 & G1). destruct (R2 b Hb) as (Hs & ps' & E2 & G2).
      split; [intros u q E; injection E as <- _; exact Ht|].
      exists (p' :: ps'). split; [cbn [map]; rewrite E1, E2; reflexivity|].
      unfold derives in *. change 0%nat with (0 + 0)%nat. eapply gf_cons; [apply G1; exact Hs|exact G2].
Qed.

(** ** C21 *)
From Verif Require Import Lexer PropsGrammar.

(** [value_ok]: strings of ASCII characters without quotes and backslashes; legal references (a label a
    reference can be written with starts with a letter); cells of u32 numbers, references and
    expressions; byte strings whose bytes have two digits. [bare_value] forgets the tokens. *)
Theorem C21_value_round_trip_partial : forall incl src v, value_ok v ->
  exists t p e e' v', bare_value v' = bare_value v
    /\ parses incl (bs "/ { p = " ++ show_value v ++ bs "; };") src
         (mkFile [PRoot (mkNode None (mkWT (mkNN (bs "/") None) t)
                    (mkPayload [IProperty (mkProp None (mkWT (bs "p") p) [v'] e)] e') None)] src) [].
Proof.
  intros incl src v Hv. set (text := bs "/ { p = " ++ show_value v ++ bs "; };").
  destruct (values_reads [v]) as (k & S1 & R1); [constructor; [exact Hv|constructor]|discriminate|].
  cbn [map join] in S1, R1.
  assert (Hsp : spelled NameExpected (Slash :: OpenBrace :: Ident (bs "p") :: Equal :: k ++ [Semicolon; CloseBrace; Semicolon]) text).
  { change text with (cSlash :: cSpace :: cLBrace :: cSpace :: bs "p" ++ (cSpace :: cEq :: cSpace :: show_value v ++ [cSemi; cSpace; cRBrace; cSemi])).
    apply (sd_tok NameExpected Slash [cSlash]); [|constructor; [reflexivity|constructor]|].
    - apply sp_slash. intros x q E. injection E as <- _. split; [discriminate|]. split; [discriminate|]. unfold letter. lia.
    - cbn [mode_after]. apply sd_space. punct. apply sd_space.
      apply sd_name; [apply lower_word; [reflexivity|discriminate]|apply (lower_word NameExpected); [reflexivity|discriminate]|apply name_stop_cons; member|].
      cbn [mode_after]. apply sd_space. punct. cbn [mode_after]. apply sd_space. apply S1; [apply stop_cons; member|].
      punct. cbn [mode_after]. apply sd_space. punct. cbn [mode_after]. punct. constructor. }
  destruct (spelled_lexed src _ _ _ Hsp [] []) as (toks & Hl & Hk); [constructor|]. cbn [app] in Hl.
  take Hk t1 Ht1. take Hk t2 Ht2. take Hk t3 Ht3. take Hk t4 Ht4.
  apply kinds_app in Hk. destruct Hk as (a & b & -> & Ha & Hk). take Hk t5 Ht5. take Hk t6 Ht6. take Hk t7 Ht7.
  destruct (R1 a Ha) as (vs' & E & G). apply kinds_nil in Hk. subst.
  destruct vs' as [|v' vs']; [discriminate|]. destruct vs'; [|discriminate]. cbn [map] in E.
  assert (E' : bare_value v' = bare_value v) by congruence.
  exists t1, t3, t5, t7, v'. split; [exact E'|].
  eapply C11_grammatical_parses_clean; [eapply spelled_valid; exact Hsp|exact Hl|].
  unfold derives. change 0%nat with (0 + 0)%nat. eapply gf_cons; [|constructor].
  eapply gp_root; [exact Ht1|exact Ht2|]. change 0%nat with (0 + 0)%nat. change t7 with (last_token (Some t7) t6).
  eapply gbo; [|constructor|constructor|exact Ht6|apply ge_semicolon; exact Ht7].
  change 0%nat with (0 + 0)%nat. change t5 with (last_token (Some t5) t4).
  eapply gi_property; [constructor|exact Ht3| |exact Ht4|apply G; exact Ht5|apply ge_semicolon; exact Ht5|constructor].
  split; [split; [discriminate|cbn; lia]|]. apply (lower_word NameExpected); [reflexivity|discriminate].
Qed.
Print Assumptions C21_value_round_trip_partial.

Example C21_example :
  let w := fun A (x : A) => mkWT x no_token in
  let v := PVCells no_token [CNumber (w N 4294967295); CReference (w reference (RefLabel (bs "uart0")));
    CReference (w reference (RefPath [mkNN (bs "soc") None; mkNN (bs "uart") (Some (bs "1,0"))])); CExpression] no_token in
  value_ok v /\ show_value v = bs "<0xffffffff &uart0 &{/soc/uart@1,0} (not implemented)>"
  /\ value_ok (PVString (w str (bs "ok, v1"))) /\ value_ok (PVBytes no_token [w str [171; 16]; w str [18]] no_token)
  /\ show_value (PVBytes no_token [w str [171; 16]; w str [18]] no_token) = bs "[ab10 12]".
Proof.
  cbv zeta. split; [|split; [reflexivity|split; [|split; [|reflexivity]]]].
  - cbn [value_ok]. constructor; [reflexivity|]. constructor; [|constructor; [|constructor; [exact I|constructor]]]; cbn [cell_ok wt_item ref_ok].
    + split; [|eexists; eexists; split; [reflexivity|apply is_alpha_spec; reflexivity]].
      split; [split; [discriminate|cbn; lia]|]. split; [rewrite <- (Forall_iff _ _ _ label_pred_spec); repeat constructor|].
      eexists. eexists. split; [reflexivity|]. left. apply is_alpha_spec. reflexivity.
    + constructor; [|constructor; [|constructor]]; right; cbn [nn_name nn_addr].
      * split; [split; [discriminate|cbn; lia]|]. split; [rewrite <- (Forall_iff _ _ _ node_pred_spec); repeat constructor|].
        split; [eexists; eexists; split; [reflexivity|apply is_alpha_spec; reflexivity]|discriminate].
      * split; [split; [discriminate|cbn; lia]|]. split; [rewrite <- (Forall_iff _ _ _ node_pred_spec); repeat constructor|].
        split; [eexists; eexists; split; [reflexivity|apply is_alpha_spec; reflexivity]|].
        intros a Ha. assert (E : bs "1,0" = a) by exact (f_equal (fun o => match o with Some x => x | None => a end) Ha). subst a.
        split; [split; [discriminate|cbn; lia]|]. rewrite <- (Forall_iff _ _ _ node_pred_spec). repeat constructor.
  - cbn [value_ok wt_item]. repeat constructor; discriminate.
  - cbn [value_ok wt_item]. repeat constructor; cbn [wt_item]; try discriminate; reflexivity.
Qed.

(** without the conditions it fails: a byte below 16 is padded with a space, and quotes and
    backslashes in strings are not escaped *)
Theorem C21_refuted : forall v, In v [PVBytes no_token [mkWT [171; 5] no_token] no_token;
    PVString (mkWT [cQuote] no_token); PVString (mkWT [cBackslash; cBackslash] no_token)] ->
  (exists t b, parses [] t [] b [] /\ exists t' p e e' v', bare_value v' = bare_value v
     /\ fl_elements b = [PRoot (mkNode None (mkWT (mkNN (bs "/") None) t')
                    (mkPayload [IProperty (mkProp None (mkWT (bs "p") p) [v'] e)] e') None)])
  /\ ~ exists t p e e' v', bare_value v' = bare_value v
    /\ parses [] (bs "/ { p = " ++ show_value v ++ bs "; };") []
         (mkFile [PRoot (mkNode None (mkWT (mkNN (bs "/") None) t)
                    (mkPayload [IProperty (mkProp None (mkWT (bs "p") p) [v'] e)] e') None)] []) [].
Proof.
  intros v H. cbn [In] in H. destruct H as [<-|[<-|[<-|[]]]].
  - split.
    + exists (bs "/ { p = [ab05]; };"). eexists. split; [eexists; split; vm_compute; reflexivity|].
      do 5 eexists. split; [|reflexivity]. reflexivity.
    + intros (t & p & e & e' & v' & E & s & K & K2). vm_compute in K.
      first [discriminate K | injection K; intros; subst; first [discriminate K2 | discriminate E]].
  - split.
    + exists (bs "/ { p = ""\""""; };"). eexists. split; [eexists; split; vm_compute; reflexivity|].
      do 5 eexists. split; [|reflexivity]. reflexivity.
    + intros (t & p & e & e' & v' & E & s & K & K2). vm_compute in K.
      first [discriminate K | injection K; intros; subst; first [discriminate K2 | discriminate E]].
  - split.
    + exists (bs "/ { p = ""\\\\""; };"). eexists. split; [eexists; split; vm_compute; reflexivity|].
      do 5 eexists. split; [|reflexivity]. reflexivity.
    + intros (t & p & e & e' & v' & E & s & K & K2). vm_compute in K.
      first [discriminate K | injection K; intros; subst; first [discriminate K2 | discriminate E]].
Qed.
Print Assumptions C21_refuted.

(** ** C22 *)
(** every excluded construct: the tree of a clean file whose display does not give the tree back without
    diagnostics (the label of a property and the omit flag of a node are not displayed, deleted items
    have no semicolon, a memory reservation has two, the name after #include has no quotes, and the
    values of [C21_refuted]) *)
Theorem C22_refuted : forall text, In text
    [bs "/{ l: p; };"; bs "/{ /omit-if-no-ref/ a{}; };"; bs "/{ /delete-node/ a; };"; bs "/{ /delete-property/ a; };";
     bs "/memreserve/ 0x1 0x2;"; bs "#include ""a"""; bs "/{ p = [05]; };"; bs "/{ p = ""a\\b""; };";
     bs "/{ p = ""a\""b""; };"; bs "/include/ ""a\\b"""] ->
  exists f, parses [] text [] f []
    /\ ~ exists f', parses [] (show_file f) [] f' [] /\ map bare_primary (fl_elements f') = map bare_primary (fl_elements f).
Proof.
  intros text H. cbn [In] in H.
  repeat (destruct H as [<-|H]; [eexists; split; [eexists; split; vm_compute; reflexivity|];
    intros (f' & (s & K & K2) & E); vm_compute in K;
    first [discriminate K | injection K; intros; subst; first [discriminate K2 | discriminate E]]|]). destruct H.
Qed.
Print Assumptions C22_refuted.

Definition plain_value (v : prop_value) : Prop :=
  match v with
  | PVString s => Forall plain_char (wt_item s)
  | PVBytes _ ss _ => Forall (fun w => Forall (fun b => 16 <= b) (wt_item w)) ss
  | _ => True
  end.
Inductive plain_item : item -> Prop :=
| pl_property nm vs e : Forall plain_value vs -> plain_item (IProperty (mkProp None nm vs e))
| pl_node lb nm its e : Forall plain_item its -> plain_item (INode (mkNode lb nm (mkPayload its e) None)).
Definition plain_primary (p : primary) : Prop :=
  match p with
  | PDirective (AMemreserve _ _) | PCStyleInclude _ => False
  | PDirective (AInclude i) => Forall plain_char (wt_item (in_file_name i))
  | PDirective _ => True
  | PRoot n => Forall plain_item (pl_items (nd_payload n))
  | PReferencedNode r => Forall plain_item (pl_items (rn_payload r))
  end.

(** what the spelling of a token says about its value *)
Definition tok_ok (t : token) : Prop :=
  (forall s, is (Ident s) t -> exists c r, s = c :: r /\ name_start NameExpected c)
  /\ (forall s, is (UnparsedNumber s) t -> s <> [])
  /\ (forall c r, is (Ref (TRefSimple (c :: r))) t -> letter c).
Lemma spells_tok_ok m k u rest sp src : spells m k u rest -> tok_ok (mkToken k sp src).
Proof.
  assert (G : forall c, name_start m c -> name_start NameExpected c).
  { intros c [H|[H|[_ H]]]; unfold name_start; auto. }
  intros H. destruct H; (split; [|split]); unfold is; cbn [tk_kind]; try discriminate.
  - intros x E. injection E as <-. eauto.
  - intros x E. injection E as <-. eexists. eexists. split; [reflexivity|]. auto.
  - intros x E. injection E as <-. discriminate.
  - intros a b E. injection E as <- _. assumption.
  - intros a E. match goal with K : In _ punctuation |- _ => cbn [punctuation In] in K; repeat (destruct K as [K|K]; [injection K as _ <-; discriminate E|]); destruct K end.
  - intros a E. match goal with K : In _ punctuation |- _ => cbn [punctuation In] in K; repeat (destruct K as [K|K]; [injection K as _ <-; discriminate E|]); destruct K end.
  - intros a b E. match goal with K : In _ punctuation |- _ => cbn [punctuation In] in K; repeat (destruct K as [K|K]; [injection K as _ <-; discriminate E|]); destruct K end.
Qed.
Lemma lexed_tok_ok src m pre t toks : lexed src m pre t toks -> Forall tok_ok toks.
Proof. induction 1; constructor; auto. eapply spells_tok_ok. eassumption. Qed.

(** the rest of a phrase consists of tokens of the phrase *)
Section Suffix.
  Variable P : token -> Prop.
  Lemma suffix_of p (l : list token) : Forall P (p ++ l) -> Forall P l.
  Proof. rewrite Forall_app. tauto. Qed.
  Lemma end_suffix l e l' n : g_end l e l' n -> Forall P l -> Forall P l'.
  Proof. destruct 1; intros HP; [inversion HP; assumption|exact HP]. Qed.
  Lemma body_suffix :
    (forall l pl l' n, g_body l pl l' n -> Forall P l -> Forall P l')
    /\ (forall seen l its l' n, g_items seen l its l' n -> Forall P l -> Forall P l').
  Proof.
    apply g_body_items_ind.
    - intros l its n l1 o l2 lb c l3 e l4 m Hi IH Ho Hl Hc He H. apply IH in H.
      destruct (g_omit_any _ _ _ Ho) as (p & -> & _). apply suffix_of in H.
      destruct (g_label_any _ _ _ Hl) as (q & -> & _). apply suffix_of in H. inversion H; subst.
      eapply end_suffix; eassumption.
    - auto.
    - intros seen d t s nm l e l1 m its l2 n Hd Ht Hn Hg He Hi IH H. apply IH. eapply end_suffix; [exact He|].
      inversion H as [|? ? ? H2]; subst. inversion H2; assumption.
    - intros seen d t s l e l1 m its l2 n Hd Ht Hg He Hi IH H. apply IH. eapply end_suffix; [exact He|].
      inversion H as [|? ? ? H2]; subst. inversion H2; assumption.
    - intros l lb t s q l1 vs l2 e l3 m its l4 n Hl Ht Hn Hq Hv He Hi IH H. apply IH. eapply end_suffix; [exact He|].
      destruct (g_values_any _ _ _ Hv) as (p & -> & _). destruct (g_label_any _ _ _ Hl) as (u & -> & _).
      apply suffix_of in H. apply (suffix_of [t; q]) in H. apply suffix_of in H. exact H.
    - intros l lb t s e l1 its l2 n Hl Ht Hn He Hi IH H. apply IH. destruct (g_label_any _ _ _ Hl) as (u & -> & _).
      apply suffix_of in H. apply (suffix_of [t; e]) in H. exact H.
    - intros seen l o l1 lb t s nm b l2 pl l3 m its l4 n Ho Hl Ht Hn Hg Hb Hbd IHb Hi IH H. apply IH, IHb.
      destruct (g_omit_any _ _ _ Ho) as (p & -> & _). apply suffix_of in H.
      destruct (g_label_any _ _ _ Hl) as (q & -> & _). apply suffix_of in H. apply (suffix_of [t; b]) in H. exact H.
  Qed.
  Lemma primary_suffix incl l p l' n : g_primary incl l p l' n -> Forall P l -> Forall P l'.
  Proof.
    intros H HP. destruct H;
      repeat match goal with K : Forall P (_ :: _) |- _ => inversion K; subst; clear K end;
      try assumption; try (eapply end_suffix; eassumption); try (eapply (proj1 body_suffix); eassumption).
  Qed.
End Suffix.

Lemma ref_text_ok t k x : tok_ok t -> is (Ref k) t -> ref_text k x -> ref_ok x.
Proof.
  intros (_ & _ & H) Ht Hr. destruct Hr as [s Hs|s p Hs Hp Hl]; cbn [ref_ok]; [|exact Hl]. split; [exact Hs|].
  destruct s as [|c r]; [destruct Hs as [[Hs _] _]; congruence|]. exists c, r. split; [reflexivity|]. eapply H. exact Ht.
Qed.
Lemma cell_read_ok l c l' : g_cell l c l' -> Forall tok_ok l -> cell_ok c.
Proof.
  destruct 1 as [t s n l Ht Hn Hb|t r x l Ht Hr|t l u l' Ht Hu Hp]; intros H; cbn [cell_ok wt_item]; [exact Hb| |exact I].
  eapply ref_text_ok; [exact (Forall_inv H)|exact Ht|exact Hr].
Qed.
Lemma cells_read_ok l cs e l' : g_cells l cs e l' -> Forall tok_ok l -> Forall cell_ok cs.
Proof.
  induction 1 as [l t l' Ho Ht|l l1 c l2 cs t l' Ho Hc _ IH]; intros H; [constructor|].
  destruct (opt_label_any _ _ Ho) as (p & -> & _). apply suffix_of in H. constructor; [eapply cell_read_ok; eassumption|].
  apply IH. destruct (g_cell_any _ _ _ Hc) as (q & -> & _). apply suffix_of in H. exact H.
Qed.
Lemma byte_text_small s b : byte_text s b -> Forall (fun x => x < 256) b /\ (s <> [] -> b <> []).
Proof.
  induction 1 as [|c d x y s b Hx1 Hx2 Hy1 Hy2 _ [IH _]|d y s b Hy1 Hy2 _ [IH _]];
    (split; [|try congruence; discriminate]); constructor; auto; lia.
Qed.
Lemma bytes_read_ok l ss e l' : g_bytes l ss e l' -> Forall tok_ok l ->
  Forall (fun w => Forall (fun b => 16 <= b) (wt_item w)) ss ->
  Forall (fun w => wt_item w <> [] /\ Forall wide_byte (wt_item w)) ss.
Proof.
  induction 1 as [l t l' Ho Ht|l e s b l2 ss t l' Ho He Hb _ IH]; intros H Hp; [constructor|].
  destruct (opt_label_any _ _ Ho) as (p & -> & _). apply suffix_of in H. inversion H as [|? ? (T1 & T2 & _) Hl2]; subst.
  inversion Hp as [|? ? P1 P2]; subst. constructor; [|apply IH; assumption]. cbn [wt_item] in *.
  destruct (byte_text_small _ _ Hb) as [B1 B2]. split.
  - apply B2. destruct He as [He|He]; [apply T2; exact He|]. destruct (T1 _ He) as (c & r & -> & _). discriminate.
  - rewrite Forall_forall in *. intros x Hx. split; [apply P1|apply B1]; exact Hx.
Qed.
Lemma value_read_ok l v l' : g_value l v l' -> Forall tok_ok l -> plain_value v -> value_ok v.
Proof.
  destruct 1 as [l t s l' Hb Ht|l t r x l' Hb Ht Hr|l t l1 cs e l' Hb Ht Hc|l t l1 ss e l' Hb Ht Hc];
    intros H Hp; destruct (g_bits_any _ _ Hb) as (q & -> & _); apply suffix_of in H; cbn [value_ok wt_item plain_value] in *.
  - exact Hp.
  - eapply ref_text_ok; [exact (Forall_inv H)|exact Ht|exact Hr].
  - eapply cells_read_ok; [exact Hc|]. inversion H; assumption.
  - eapply bytes_read_ok; [exact Hc| |exact Hp]. inversion H; assumption.
Qed.
Lemma values_read_ok l vs l' : g_values l vs l' -> Forall tok_ok l -> Forall plain_value vs -> Forall value_ok vs.
Proof.
  induction 1 as [l l1 v l2 l' Ho Hv Ho' He|l l1 v l2 c l3 vs l' Ho Hv Ho' Hc _ IH]; intros H Hp;
    destruct (opt_label_any _ _ Ho) as (q & -> & _); apply suffix_of in H; inversion Hp; subst.
  - constructor; [|constructor]. eapply value_read_ok; eassumption.
  - constructor; [eapply value_read_ok; eassumption|]. apply IH; [|assumption].
    destruct (g_value_any _ _ _ Hv) as (r & -> & _). apply suffix_of in H.
    destruct (opt_label_any _ _ Ho') as (u & -> & _). apply suffix_of in H. inversion H; assumption.
Qed.
Lemma label_read_ok l lb l' : g_label l lb l' -> label_fine lb.
Proof. destruct 1; constructor. assumption. Qed.

Lemma body_read_ok :
  (forall l pl l' n, g_body l pl l' n -> n = 0%nat -> Forall tok_ok l -> Forall plain_item (pl_items pl) -> items_ok false (pl_items pl))
  /\ (forall seen l its l' n, g_items seen l its l' n -> n = 0%nat -> Forall tok_ok l -> Forall plain_item its -> items_ok seen its).
Proof.
  apply g_body_items_ind.
  - intros l its n l1 o l2 lb c l3 e l4 m Hi IH Ho Hl Hc He E H Hp. apply IH; [lia|exact H|exact Hp].
  - intros. constructor.
  - intros seen d t s nm l e l1 m its l2 n Hd Ht Hn Hg He Hi IH E H Hp. inversion Hp as [|? ? K]; subst. inversion K.
  - intros seen d t s l e l1 m its l2 n Hd Ht Hg He Hi IH E H Hp. inversion Hp as [|? ? K]; subst. inversion K.
  - intros l lb t s q l1 vs l2 e l3 m its l4 n Hl Ht Hn Hq Hv He Hi IH E H Hp.
    inversion Hp as [|? ? K1 K2]; subst. inversion K1 as [? ? ? Kv|]; subst.
    destruct (g_label_any _ _ _ Hl) as (u & -> & _). apply suffix_of in H.
    inversion H as [|? ? (T1 & _ & _) H1]; subst. inversion H1 as [|? ? _ H2]; subst. constructor.
    + split; [reflexivity|]. split; [exact Hn|]. split; [apply T1; exact Ht|]. eapply values_read_ok; eassumption.
    + apply IH; [lia| |exact K2]. eapply end_suffix; [exact He|]. destruct (g_values_any _ _ _ Hv) as (p & -> & _).
      apply suffix_of in H2. exact H2.
  - intros l lb t s e l1 its l2 n Hl Ht Hn He Hi IH E H Hp.
    inversion Hp as [|? ? K1 K2]; subst. inversion K1 as [? ? ? Kv|]; subst.
    destruct (g_label_any _ _ _ Hl) as (u & -> & _). apply suffix_of in H.
    inversion H as [|? ? (T1 & _ & _) H1]; subst. inversion H1 as [|? ? _ H2]; subst. constructor.
    + split; [reflexivity|]. split; [exact Hn|]. split; [apply T1; exact Ht|]. constructor.
    + apply IH; [reflexivity|exact H2|exact K2].
  - intros seen l o l1 lb t s nm b l2 pl l3 m its l4 n Ho Hl Ht Hn Hg Hb Hbd IHb Hi IH E H Hp.
    inversion Hp as [|? ? K1 K2]; subst. inversion K1 as [|? ? ? ? Ki]; subst.
    destruct (g_omit_any _ _ _ Ho) as (p & -> & _). apply suffix_of in H.
    pose proof (label_read_ok _ _ _ Hl) as Hlb.
    destruct (g_label_any _ _ _ Hl) as (q & -> & _). apply suffix_of in H. apply (suffix_of _ [t; b]) in H.
    constructor; [exact Hlb|exact Hg|apply IHb; [lia|exact H|exact Ki]|].
    apply IH; [lia| |exact K2]. eapply (proj1 (body_suffix tok_ok)); eassumption.
Qed.

Lemma file_read_ok incl l ps n : g_file incl l ps n -> n = 0%nat -> Forall tok_ok l -> Forall plain_primary ps ->
  Forall (primary_ok incl) ps.
Proof.
  induction 1 as [|l p l' m ps n Hp _ IH]; intros E H Hpl; [constructor|].
  inversion Hpl as [|? ? K1 K2]; subst. constructor; [|apply IH; [lia|eapply primary_suffix; eassumption|exact K2]].
  assert (Em : m = 0%nat) by lia. clear E IH Hpl K2. revert Em.
  destruct Hp as [t l e l' m Ht He|t l e l' m Ht He|t a sa na b sb nb l e l' m Ht Ha La Na Hb Lb Nb He
        |t f s l Ht Hf'|t f s l Ht Hf' Hn|t b l pl l' m Ht Hb Hbd|t r x b l pl l' m Ht Hr Hb Hbd
        |d t r x l e l' m Hd Ht Hr He|d t r x l e l' m Hd Ht Hr He]; intros Em;
    cbn [primary_ok plain_primary wt_item in_file_name in_paths nd_label nd_name nd_payload nd_omit rn_reference rn_payload] in *; auto.
  - inversion H as [|? ? T1 H1]; subst. inversion H1 as [|? ? T2 H2]; subst. destruct pl as [its e].
    repeat split. eapply (proj1 body_read_ok); [exact Hbd|reflexivity|exact H2|exact K1].
  - inversion H as [|? ? T1 H1]; subst. inversion H1 as [|? ? T2 H2]; subst.
    split; [eapply (ref_text_ok t r); eassumption|]. eapply (proj1 body_read_ok); [exact Hbd|reflexivity|exact H2|exact K1].
  - inversion H as [|? ? T1 H1]; subst. inversion H1 as [|? ? T2 H2]; subst. eapply ref_text_ok; eassumption.
  - inversion H as [|? ? T1 H1]; subst. inversion H1 as [|? ? T2 H2]; subst. eapply ref_text_ok; eassumption.
Qed.

(** Full statement: without [plain_primary]. It is false ([C22_refuted]); it holds for trees without the
    constructs listed there. *)
Theorem C22_plain_partial : forall incl text src f src',
  valid_utf8 text = true -> parses incl text src f [] -> Forall plain_primary (fl_elements f) ->
  exists f', parses incl (show_file f) src' f' []
    /\ map bare_primary (fl_elements f') = map bare_primary (fl_elements f).
Proof.
  intros incl text src f src' Hv Hp Hpl. destruct (C10_clean_parse_derives _ _ _ _ Hv Hp) as (_ & toks & Hl & Hd).
  pose proof (file_read_ok _ _ _ _ Hd eq_refl (lexed_tok_ok _ _ _ _ _ Hl) Hpl) as Hok.
  destruct (file_reads incl _ Hok) as (ks & Hs & R). destruct (spelled_lexed src' _ _ _ Hs [] []) as (toks' & Hl' & Hk); [constructor|].
  destruct (R toks' Hk) as (_ & ps' & E & Hd'). exists (mkFile ps' src'). split; [|exact E].
  eapply C11_grammatical_parses_clean; [eapply spelled_valid; exact Hs|exact Hl'|exact Hd'].
Qed.
Print Assumptions C22_plain_partial.

Example C22_example : exists f,
  parses [] (bs "/dts-v1/; /include/ ""b.dtsi"" / { #a = <1 &l (1+2)>, ""x""; l: n@1 { e; b = /bits/ 8 [ab 12]; }; }; &{/n@1} { m {}; }; /delete-node/ &l;") [] f []
  /\ Forall plain_primary (fl_elements f) /\ length (fl_elements f) = 5%nat.
Proof.
  eexists. split; [eexists; split; vm_compute; reflexivity|]. cbn [fl_elements]. split; [|reflexivity].
  repeat constructor; try discriminate; cbn [plain_value wt_item]; repeat constructor; discriminate.
Qed.

(** ** C66 *)
(** A node may carry a label that starts with an underscore, but no text contains a reference to it. *)
Theorem C66_refuted : exists s, legal_label s
  /\ (exists f, parses [] (bs "/{ " ++ s ++ bs ": n{}; };") [] f [])
  /\ forall text src toks, valid_utf8 text = true -> tokenize text src = Done toks ->
       Forall (fun t => ~ is (Ref (TRefSimple s)) t) toks.
Proof.
  exists (bs "_l"). split; [|split].
  - split; [split; [discriminate|cbn; lia]|]. split; [rewrite <- (Forall_iff _ _ _ label_pred_spec); repeat constructor|].
    eexists. eexists. split; [reflexivity|]. right. reflexivity.
  - eexists. eexists. split; vm_compute; reflexivity.
  - intros text src toks Hv Ht. apply (tokenize_iff text src toks Hv) in Ht. apply lexed_tok_ok in Ht.
    eapply Forall_impl; [|exact Ht]. cbn beta. intros t (_ & _ & H) K. specialize (H _ _ K). unfold letter in H. cbn in H. lia.
Qed.
Print Assumptions C66_refuted.

(** Every legal label that starts with a letter can be referenced. *)
Theorem C66_letter_partial : forall incl src s, legal_label s -> (exists c r, s = c :: r /\ letter c) ->
  exists t e, parses incl (bs "&" ++ s ++ bs " {" ++ nl ++ bs "};" ++ nl) src
                (mkFile [PReferencedNode (mkRefNode (mkWT (RefLabel s) t) (mkPayload [] e))] src) [].
Proof.
  intros incl src s Hs Hc. set (p := PReferencedNode (mkRefNode (mkWT (RefLabel s) no_token) (mkPayload [] no_token))).
  destruct (file_reads incl [p]) as (ks & Hsp & R).
  { constructor; [|constructor]. split; [split; assumption|constructor]. }
  destruct (spelled_lexed src _ _ _ Hsp [] []) as (toks & Hl & Hk); [constructor|]. destruct (R toks Hk) as (_ & ps & E & Hd).
  assert (Ht : concat (map (fun p => show_primary p ++ nl) [p]) = bs "&" ++ s ++ bs " {" ++ nl ++ bs "};" ++ nl).
  { cbn [map concat]. unfold p. cbn [show_primary]. unfold show_ref_node. cbn [rn_reference rn_payload wt_item show_reference].
    rewrite app_nil_r, <- !app_assoc. reflexivity. }
  rewrite Ht in Hl, Hsp. destruct ps as [|[d|[lb nm pl o]|[[r t] [its e]]|x] [|p2 ps]]; try discriminate E.
  { cbn [map] in E. injection E as E. unfold p in E. cbn [bare_primary] in E. destruct d; discriminate E. }
  assert (Er : r = RefLabel s).
  { exact (f_equal (fun l => match l with [PReferencedNode q] => wt_item (rn_reference q) | _ => r end) E). }
  assert (Ei : map bare_item its = []).
  { exact (f_equal (fun l => match l with [PReferencedNode q] => pl_items (rn_payload q) | _ => [] end) E). }
  apply map_eq_nil in Ei. subst r its. exists t, e.
  eapply C11_grammatical_parses_clean; [eapply spelled_valid; exact Hsp|exact Hl|exact Hd].
Qed.
Print Assumptions C66_letter_partial.
