(** C113: in an editor the layout of the documents changes only places in what the language server publishes, and the outline stays the same *)
From Verif Require Import Base DisplayProofs TreeProofs LexSpec LexerProofs2 Parser Analysis AnalysisSpec AnalysisProofs Project ProjectSpec ProjectProofs2 ProjectHistory
  PropsAnalysis PropsRealise PropsHistory PropsReformat PropsLayout PropsProject Server ServerProofs PropsServer Whole PropsWhole Session PropsSession Relaid PropsRelaid Tests.
From Coq Require Import Permutation.

(** ** Sessions in two layouts *)
Definition relaid_note (n n' : note) : Prop :=
  match n, n' with
  | NOpen u t, NOpen u' t' => u = u' /\ relaid_text [] t t'
  | NChange u ts, NChange u' ts' => u = u' /\ Forall2 (relaid_text []) ts ts'
  | NInitialize ds, NInitialize ds' | NConfigure ds, NConfigure ds' => ds = ds'
  | NClose u, NClose u' => u = u'
  | _, _ => False
  end.
Definition relaid_message (m m' : fsys * note) : Prop := relaid (fst m) (fst m') /\ relaid_note (snd m) (snd m').
Definition same_remark (d d' : lsp_diag) : Prop := ld_message d = ld_message d' /\ ld_code d = ld_code d' /\ ld_severity d = ld_severity d'.
Definition same_publications (l l' : list publication) : Prop := Forall2 (fun x y => fst x = fst y /\ Forall2 same_remark (snd x) (snd y)) l l'.
(** symbols without their ranges *)
Fixpoint bare_symbol (s : symbol) : symbol :=
  match s with
  | mkSym name kind dep _ _ ch => mkSym name kind dep (as_span pos_zero) (as_span pos_zero)
      (match ch with Some l => Some (map bare_symbol l) | None => None end)
  end.

(** ** The path of a file does not matter to its tokens *)
Lemma lexed_source src src' m pre t toks : lexed src m pre t toks -> exists toks', lexed src' m pre t toks' /\ map tk_kind toks = map tk_kind toks'.
Proof.
  induction 1 as [m pre t H|m pre g u Hg Hu|m pre g k u rest toks Hg Hs _ (toks' & H & E)].
  - exists []. split; [apply lx_end, H|reflexivity].
  - exists []. split; [apply lx_unterminated; assumption|reflexivity].
  - eexists. split; [apply lx_token; eassumption|]. cbn [map tk_kind]. rewrite E. reflexivity.
Qed.
Lemma tokens_source src src' t toks : valid_utf8 t = true -> tokenize t src = Done toks -> exists toks', tokenize t src' = Done toks' /\ map tk_kind toks = map tk_kind toks'.
Proof.
  intros Hv H. apply (tokenize_iff t src toks Hv) in H. destruct (lexed_source _ src' _ _ _ _ H) as (toks' & H' & E).
  exists toks'. split; [apply (tokenize_iff t src' toks' Hv); exact H'|exact E].
Qed.
Lemma relaid_any src src' t t' : valid_utf8 t = true -> valid_utf8 t' = true -> relaid_text src t t' -> relaid_text src' t t'.
Proof.
  intros Hv Hv' [->|(x & y & X & Y & E & U)]; [left; reflexivity|]. right.
  destruct (tokens_source _ src' _ _ Hv X) as (x' & X' & Ex). destruct (tokens_source _ src' _ _ Hv' Y) as (y' & Y' & Ey).
  exists x', y'. split; [exact X'|]. split; [exact Y'|]. split; [congruence|]. rewrite <- Ex. exact U.
Qed.

(** ** Files of an editor *)
Section Step.
  Context {LK : likeness}.
  Context (fs fs' : fsys) (incl : list fpath) (root : fpath) (text text' : str) (present : list fpath).
  Hypothesis Hr : relaid fs fs'.
  Hypothesis Ht : relaid_text root text text'.
  Hypothesis Hv : valid_utf8 text = true.
  Hypothesis Hv' : valid_utf8 text' = true.
  Lemma text_of_relaid p t : text_of fs root text p = Some t ->
    exists t', text_of fs' root text' p = Some t' /\ relaid_text p t t' /\ valid_utf8 t = true /\ valid_utf8 t' = true.
  Proof.
    unfold text_of. destruct (str_eq_dec p root) as [->|]; intros E.
    - injection E as <-. exists text'. auto.
    - pose proof (proj2 Hr p) as Hp. destruct (read_to_string fs p) as [x|] eqn:X; [|discriminate E]. injection E as <-.
      destruct (read_to_string fs' p) as [y|] eqn:Y; [|contradiction]. exists y.
      split; [reflexivity|]. split; [exact Hp|]. split; [exact (proj1 (read_valid fs p x X))|exact (proj1 (read_valid fs' p y Y))].
  Qed.
  Lemma includes_relaid p q : includes fs incl root text p q -> includes fs' incl root text' p q.
  Proof.
    intros (t & f & s & i & E & P & Hi & Ei). destruct (text_of_relaid p t E) as (t' & E' & R & V & V').
    pose proof (reading_relaid (include_dirs incl p) p t t' R V V') as Rd. rewrite P in Rd. cbn [same_reading] in Rd.
    destruct (parse_text (include_dirs incl p) t' p) as [g s'|d' s'| |] eqn:P'; try contradiction. destruct Rd as [Eb _].
    destruct (same_elements_in _ _ _ Eb Hi) as (x & Hx & Ex). destruct x as [[a|a|x y|j|a r|a r]|n|r|a]; try discriminate Ex. cbn [bare_primary] in Ex. injection Ex as E1 E2.
    exists t', g, s', j. split; [exact E'|]. split; [exact P'|]. split; [exact Hx|]. rewrite <- (include_relaid fs fs' (proj1 Hr) i j E1 E2). exact Ei.
  Qed.
  Lemma load_relaid k : loaded fs incl root text present k -> loaded fs' incl root text' present k.
  Proof.
    induction 1 as [|p q _ IH Hi Hn Hq]; [constructor|]. eapply ld_include; [exact IH|exact (includes_relaid p q Hi)|exact Hn|exact (relaid_readable _ _ _ Hr Hq)].
  Qed.
  Lemma element_diags_relaid l : forall m, map bare_primary l = map bare_primary m ->
    says_same (flat_map (element_diags fs root present) l) (flat_map (element_diags fs' root present) m).
  Proof.
    induction l as [|p l IH]; intros [|q m] E; try discriminate E; [reflexivity|]. injection E as Ep E. cbn [flat_map]. apply says_app; [|exact (IH m E)].
    destruct p as [[t|t|x y|i|t r|t r]|n|r|s], q as [[t'|t'|x' y'|i'|t' r'|t' r']|n'|r'|s']; try discriminate Ep; try reflexivity. cbn [element_diags]. unfold include_diags.
    cbn [bare_primary] in Ep. injection Ep as Ei Ed. rewrite (include_relaid fs fs' (proj1 Hr) i i' Ei Ed).
    destruct (include_path fs' i') as [z|e]; [|reflexivity]. destruct (in_dec str_eq_dec z (root :: present)); [reflexivity|]. pose proof (proj2 Hr z) as Hz.
    destruct (read_to_string fs z) as [t|e], (read_to_string fs' z) as [t'|e']; try contradiction; [reflexivity|]. subst e'. reflexivity.
  Qed.
  Lemma stored_relaid p t t' ft v : lk_seen p t t' -> relaid_text p t t' -> valid_utf8 t = true -> valid_utf8 t' = true ->
    stored fs incl root present p t ft v -> exists w, stored fs' incl root present p t' ft w /\ relaid_file v w.
  Proof.
    intros Sn R V V' (_ & Ety & Ec & Ea & K). pose proof (reading_relaid (include_dirs incl p) p t t' R V V') as Rd.
    destruct K as [(f & s & P & Ef & Ed)|(d & s & P & Ef & Ed)]; rewrite P in Rd; cbn [same_reading] in Rd;
      destruct (parse_text (include_dirs incl p) t' p) as [g s'|d' s'| |] eqn:P'; try contradiction; destruct Rd as [Eb El].
    - exists (mkPF (ps_diags s' ++ flat_map (element_diags fs' root present) (fl_elements g)) [] (Some g) None ft t'). split.
      + repeat (split; [reflexivity|]). left. exists g, s'. repeat split. exact P'.
      + constructor; cbn [pf_pdiags pf_adiags pf_file pf_type pf_ctx].
        * rewrite Ed. apply says_app; [exact El|]. apply element_diags_relaid. exact Eb.
        * rewrite Ea. reflexivity.
        * rewrite Ef. split; [exact Eb|]. split; [rewrite (parse_source _ _ _ _ _ V P), (parse_source _ _ _ _ _ V' P'); reflexivity|].
          apply (lk_read p). do 5 eexists. split; [exact V|]. split; [exact V'|]. split; [exact Sn|]. split; [exact R|]. split; eassumption.
        * exact Ety.
        * rewrite Ec. exact I.
    - exists (mkPF [d'] [] None None ft t'). split.
      + repeat (split; [reflexivity|]). right. exists d', s'. repeat split. exact P'.
      + constructor; cbn [pf_pdiags pf_adiags pf_file pf_type pf_ctx].
        * rewrite Ed. unfold says_same. cbn [map]. rewrite Eb. reflexivity.
        * rewrite Ea. reflexivity.
        * rewrite Ef. exact I.
        * exact Ety.
        * rewrite Ec. exact I.
  Qed.
End Step.

Lemma added_relaid {LK : likeness} fs fs' incl root text text' ft T U T1 : relaid fs fs' -> disks_seen fs fs' -> lk_seen root text text' -> relaid_text root text text' -> valid_utf8 text = true -> valid_utf8 text' = true ->
  Forall2 paired T U -> added fs incl root text ft T T1 -> exists U1, added fs' incl root text' ft U U1 /\ Forall2 paired T1 U1.
Proof.
  intros Hr Hs Hs0 Ht Hv Hv' P (N & K & A). pose proof (paired_keys _ _ P) as Ek. pose proof (paired_table _ _ P) as Rt.
  set (good := fun k w => (k = root /\ stored fs' incl root (keys U) root text' ft w)
    \/ (k <> root /\ fget k U = Some w)
    \/ (k <> root /\ ~ In k (keys U) /\ exists t, read_to_string fs' k = inl t /\ stored fs' incl root (keys U) k t (file_type_of_path k) w)).
  assert (One : forall k v, fget k T1 = Some v -> exists w, relaid_file v w /\ good k w).
  { intros k v Hk. destruct (A k v Hk) as [(-> & S)|[(Hne & G)|(Hne & Hn & t & Rd & S)]].
    - rewrite Ek in S. destruct (stored_relaid fs fs' incl root (keys U) Hr root text text' ft v Hs0 Ht Hv Hv' S) as (w & Sw & R). exists w. split; [exact R|left; auto].
    - pose proof (Rt k) as Rk. rewrite G in Rk. destruct (fget k U) as [w|] eqn:W; [|contradiction]. exists w. split; [exact Rk|right; left; auto].
    - rewrite Ek in S, Hn. pose proof (proj2 Hr k) as Hk'. rewrite Rd in Hk'. destruct (read_to_string fs' k) as [t'|] eqn:Rd'; [|contradiction].
      destruct (stored_relaid fs fs' incl root (keys U) Hr k t t' _ v (Hs k t t' Rd Rd') Hk' (proj1 (read_valid fs k t Rd)) (proj1 (read_valid fs' k t' Rd')) S) as (w & Sw & R).
      exists w. split; [exact R|]. right. right. split; [exact Hne|]. split; [exact Hn|]. exists t'. auto. }
  assert (X : forall l, NoDup (keys l) -> (forall k v, fget k l = Some v -> exists w, relaid_file v w /\ good k w) ->
    exists m, Forall2 paired l m /\ forall k w, In (k, w) m -> good k w).
  { clearbody good. clear - LK. induction l as [|[k v] l IH]; intros N E; [exists []; split; [constructor|intros k w []]|].
    unfold keys, m_keys in *. cbn [map fst] in N. inversion N as [|? ? N1 N2]; subst. destruct IH as (m & F & G); [exact N2| |].
    - intros q x Hq. apply E. cbn [m_get]. destruct (str_eq_dec q k) as [->|]; [|exact Hq]. apply (m_get_key str_eq_dec) in Hq. contradiction.
    - destruct (E k v) as (w & R & Gw); [cbn [m_get]; destruct (str_eq_dec k k); [reflexivity|contradiction]|].
      exists ((k, w) :: m). split; [constructor; [split; [reflexivity|exact R]|exact F]|]. intros q x [H|H]; [injection H as <- <-; exact Gw|exact (G q x H)]. }
  destruct (X T1 N One) as (U1 & F & G). exists U1. split; [|exact F]. pose proof (paired_keys _ _ F) as Ek1. split; [rewrite <- Ek1; exact N|]. split.
  - intros k. rewrite <- Ek1, K, Ek. split; intros [H|H]; auto; right.
    + exact (load_relaid fs fs' incl root text text' (keys U) Hr Ht Hv Hv' k H).
    + refine (load_relaid fs' fs incl root text' text (keys U) (relaid_sym _ _ Hr) _ Hv' Hv k H).
      destruct Ht as [->|(x & y & A1 & A2 & A3 & A4)]; [left; reflexivity|]. right. exists y, x. rewrite <- A3. auto.
  - intros k w Hw. exact (G k w (m_get_in _ _ _ _ Hw)).
Qed.

Lemma remarks_relaid {LK : likeness} v w : relaid_file v w -> Forall2 same_remark (map shown (pf_pdiags v ++ pf_adiags v)) (map shown (pf_pdiags w ++ pf_adiags w)).
Proof.
  intros R. apply relaid_diags in R. unfold pf_diags, says_same in R. revert R. generalize (pf_pdiags w ++ pf_adiags w).
  induction (pf_pdiags v ++ pf_adiags v) as [|d l IH]; intros [|e m] R; try discriminate R; cbn [map]; constructor.
  - injection R as E1 E2 _. unfold same_remark, shown. cbn [ld_message ld_code ld_severity]. rewrite E1, E2. auto.
  - injection R as _ _ R. exact (IH m R).
Qed.
Lemma announced_relaid {LK : likeness} fs fs' T U pubs : relaid fs fs' -> Forall2 paired T U -> announced fs T pubs ->
  exists pubs', announced fs' U pubs' /\ same_publications pubs pubs'.
Proof.
  intros Hr P (ks & Pk & ->). exists (map (fun k => (FileUri k, known fs' U k)) ks). split; [exists ks; split; [rewrite <- (paired_keys _ _ P); exact Pk|reflexivity]|].
  pose proof (paired_table _ _ P) as Rt. unfold same_publications. clear Pk. induction ks as [|k ks IH]; cbn [map]; constructor; [|exact IH].
  cbn [fst snd]. split; [reflexivity|]. unfold known. rewrite <- (proj1 Hr). destruct (fs_canon fs k) as [q|]; [|constructor]. specialize (Rt q).
  destruct (fget q T) as [v|], (fget q U) as [w|]; try contradiction; [exact (remarks_relaid v w Rt)|constructor].
Qed.
Lemma edited_relaid {LK : likeness} fs fs' incl p text text' T U T' pubs : relaid fs fs' -> disks_seen fs fs' ->
  (forall k, fs_canon fs p = inl k -> lk_seen k text text') -> relaid_text [] text text' -> valid_utf8 text = true -> valid_utf8 text' = true ->
  NoDup (keys T) -> Forall2 paired T U -> tidy U -> edited fs incl p text T T' pubs ->
  exists U' pubs', edited fs' incl p text' U U' pubs' /\ Forall2 paired T' U' /\ NoDup (keys T') /\ same_publications pubs pubs'.
Proof.
  intros Hr Hs Hs0 Ht Hv Hv' N P Ok [root T1 order pubs' Ec Ad (l & m & P1 & P2 & Eo) W An].
  destruct (added_relaid fs fs' incl root text text' _ T U T1 Hr Hs (Hs0 root Ec) (relaid_any _ root _ _ Hv Hv' Ht) Hv Hv' P Ad) as (U1 & Ad' & P').
  assert (Ok1 : project_ok (mkProject U1 incl default_severities)).
  { intros k v c Hin Hc. cbn [pj_files] in Hin. apply (m_in_get str_eq_dec) in Hin; [|apply Ad'].
    destruct (proj2 (proj2 Ad') k v Hin) as [(_ & (_ & _ & E & _))|[(_ & G)|(_ & _ & t & _ & (_ & _ & E & _))]]; [congruence|exact (Ok k v c G Hc)|congruence]. }
  destruct (walk_relaid fs fs' incl default_severities order [] T1 T' Hr W U1 (paired_table _ _ P') Ok1) as (U' & W' & R' & K').
  assert (NT : NoDup (keys T')) by (rewrite (walk_table _ _ _ _ _ _ _ W); apply Ad).
  assert (PT : Forall2 paired T' U').
  { apply table_paired; [exact NT| |exact R']. rewrite K', (walk_table _ _ _ _ _ _ _ W). apply paired_keys, P'. }
  destruct (perm_paired l T1 U1 (Permutation_sym P1) P') as (lu & PL & Fl).
  destruct (announced_relaid fs fs' T' U' pubs' Hr PT An) as (pubs2 & An' & SP).
  exists U', pubs2. split; [|auto]. apply edit_by with (root := root) (T1 := U1) (order := order); [rewrite <- (proj1 Hr); exact Ec|exact Ad'| |exact W'|exact An'].
  exists lu, m. split; [apply Permutation_sym, PL|]. split; [rewrite <- (includers_relaid fs fs' Hr l lu Fl); exact P2|].
  rewrite <- (paired_keys _ _ Fl). exact Eo.
Qed.
Lemma filter_paired {LK : likeness} q T U : Forall2 paired T U ->
  Forall2 paired (filter (fun kv => if str_eq_dec q (fst kv) then false else true) T) (filter (fun kv => if str_eq_dec q (fst kv) then false else true) U).
Proof.
  induction 1 as [|[a v] [b w] T U [E R] _ IH]; [constructor|]. cbn [fst snd] in E, R. subst b. cbn [filter fst]. destruct (str_eq_dec q a); [exact IH|]. constructor; [split; [reflexivity|exact R]|exact IH].
Qed.
Lemma filter_nodup q (T : table) : NoDup (keys T) -> NoDup (keys (filter (fun kv => if str_eq_dec q (fst kv) then false else true) T)).
Proof. intros N. exact (m_nodup_remove str_eq_dec q _ N). Qed.

(** [shares m m' k t t']: the messages bring these texts of the file [k], on the disk or in an editor *)
Definition given (n : note) (p : fpath) (t : str) : Prop := n = NOpen (FileUri p) t \/ exists ts, n = NChange (FileUri p) (t :: ts).
Definition shares (m m' : fsys * note) (k : fpath) (t t' : str) : Prop :=
  (read_to_string (fst m) k = inl t /\ read_to_string (fst m') k = inl t')
  \/ exists p, fs_canon (fst m) p = inl k /\ given (snd m) p t /\ given (snd m') p t'.
Lemma session_relaid {LK : likeness} ms incl T pubs : session_of ms incl T pubs -> forall ms',
  Forall2 (fun m m' => relaid_message m m' /\ forall k t t', shares m m' k t t' -> lk_seen k t t') ms ms' ->
  Forall (fun m => note_valid (snd m)) ms -> Forall (fun m => note_valid (snd m)) ms' ->
  exists U pubs', session_of ms' incl U pubs' /\ Forall2 paired T U /\ NoDup (keys T) /\ same_publications pubs pubs'.
Proof.
  induction 1 as [|ms fs n incl T pubs incl' T' more _ IH R]; intros ms' F V V'.
  - inversion F; subst. exists [], []. split; [constructor|]. split; [constructor|]. split; constructor.
  - apply Forall2_app_inv_l in F. destruct F as (m1 & m2 & F1 & F2 & ->). inversion F2 as [|? [fs' n'] ? ? [[Hr Hn] Hsh] F3]; subst. inversion F3; subst. cbn [fst snd] in Hr, Hn.
    assert (Hs : disks_seen fs fs') by (intros k t t' A B; apply Hsh; left; split; assumption).
    apply Forall_app in V. destruct V as [V1 V2]. apply Forall_app in V'. destruct V' as [V1' V2'].
    apply Forall_inv in V2. apply Forall_inv in V2'. cbn [snd] in V2, V2'.
    destruct (IH m1 F1 V1 V1') as (U & pubs1 & S & P & N & SP). pose proof (session_tidy _ _ _ _ S) as Ok.
    assert (Go : forall U' more', reply fs' n' incl U incl' U' more' -> Forall2 paired T' U' -> NoDup (keys T') -> same_publications more more' ->
      exists U0 p0, session_of (m1 ++ [(fs', n')]) incl' U0 p0 /\ Forall2 paired T' U0 /\ NoDup (keys T') /\ same_publications (pubs ++ more) p0).
    { intros U' more' R' P' N' SP'. exists U', (pubs1 ++ more'). split; [eapply so_next; eassumption|]. split; [exact P'|]. split; [exact N'|]. apply Forall2_app; assumption. }
    assert (Dirs : forall ds, dirs_of fs ds = dirs_of fs' ds) by (intros ds; apply map_ext; intros p; rewrite (proj1 Hr p); reflexivity).
    assert (Nil : same_publications [] []) by constructor.
    inversion R as [dirs i0 T0|dirs i0 T0 pb An|p text i0 T0 T1 pb Ed|p text rest i0 T0 T1 pb Ed|p q i0 T0 Ec|p e i0 T0 Ec|s text i0 T0|s ts i0 T0|s i0 T0]; subst;
      destruct n' as [dirs'|dirs'|u' text'|u' texts'|u']; cbn [relaid_note] in Hn; try contradiction; cbn [note_valid] in V2, V2'.
    + subst dirs'. rewrite Dirs in Go |- *. apply (Go U []); [constructor|assumption..].
    + subst dirs'. rewrite Dirs in Go |- *. destruct (announced_relaid fs fs' _ U _ Hr P An) as (p2 & An' & SP'). apply (Go U p2); [constructor; exact An'|assumption..].
    + destruct Hn as [<- Ht]. destruct (edited_relaid fs fs' _ p text text' _ U _ _ Hr Hs (fun k Hk => Hsh k text text' (or_intror (ex_intro _ p (conj Hk (conj (or_introl eq_refl) (or_introl eq_refl)))))) Ht V2 V2' N P Ok Ed) as (U' & p2 & Ed' & P' & N' & SP').
      apply (Go U' p2); [constructor; exact Ed'|assumption..].
    + destruct Hn as [<- Ht]. inversion Ht as [|? text' ? rest' Ht1 Ht2]; subst. apply Forall_inv in V2. apply Forall_inv in V2'.
      destruct (edited_relaid fs fs' _ p text text' _ U _ _ Hr Hs
        (fun k Hk => Hsh k text text' (or_intror (ex_intro _ p (conj Hk (conj (or_intror (ex_intro _ _ eq_refl)) (or_intror (ex_intro _ _ eq_refl))))))) Ht1 V2 V2' N P Ok Ed) as (U' & p2 & Ed' & P' & N' & SP').
      apply (Go U' p2); [constructor; exact Ed'|assumption..].
    + subst u'. apply (Go (filter (fun kv => if str_eq_dec q (fst kv) then false else true) U) []);
        [constructor; rewrite <- (proj1 Hr); exact Ec|apply filter_paired, P|apply filter_nodup, N|exact Nil].
    + subst u'. apply (Go U []); [eapply rp_close_unknown; rewrite <- (proj1 Hr); exact Ec|assumption..].
    + destruct Hn as [<- _]. apply (Go U []); [constructor|assumption..].
    + destruct Hn as [<- _]. apply (Go U []); [constructor|assumption..].
    + subst u'. apply (Go U []); [constructor|assumption..].
Qed.

(** [exchanged ms ms' k t t']: the texts of the file [k] after the same number of messages of the sessions *)
Definition exchanged (ms ms' : list (fsys * note)) (k : fpath) (t t' : str) : Prop :=
  exists i m m', nth_error ms i = Some m /\ nth_error ms' i = Some m' /\ shares m m' k t t'.
Lemma messages_exchanged ms ms' : Forall2 relaid_message ms ms' ->
  Forall2 (fun m m' => relaid_message m m' /\ forall k t t', shares m m' k t t' -> exchanged ms ms' k t t') ms ms'.
Proof.
  intros H. apply forall2_nth; [exact (forall2_len _ _ _ H)|]. intros i m m' X Y. split; [exact (nth_forall2 _ _ _ _ _ _ H X Y)|]. intros k t t' S. exists i, m, m'. auto.
Qed.
Lemma messages_any ms ms' : Forall2 relaid_message ms ms' -> Forall2 (fun m m' => relaid_message m m' /\ forall k t t', shares m m' k t t' -> True) ms ms'.
Proof. induction 1; constructor; auto. Qed.

(** ** Outlines *)
Lemma payload_symbols_map p : payload_symbols p = map item_symbol (pl_items p).
Proof. destruct p as [its e]. cbn [pl_items]. induction its as [|i l IH]; [reflexivity|]. cbn [map]. rewrite <- IH. reflexivity. Qed.
Lemma item_symbol_bare i : bare_symbol (item_symbol (bare_item i)) = bare_symbol (item_symbol i).
Proof.
  revert i. fix IH 1. intros [p|[lb nm [its e] o]|t n|t n]; try reflexivity.
  change (bare_symbol (mkSym (nn_name (wt_item nm)) SkModule false (node_span (bare_node (mkNode lb nm (mkPayload its e) o))) (wt_span (bare nm)) (Some (payload_symbols (mkPayload (map bare_item its) no_token))))
    = bare_symbol (mkSym (nn_name (wt_item nm)) SkModule false (node_span (mkNode lb nm (mkPayload its e) o)) (wt_span nm) (Some (payload_symbols (mkPayload its e))))).
  cbn [bare_symbol]. do 2 f_equal. rewrite !payload_symbols_map. cbn [pl_items]. rewrite !map_map.
  induction its as [|i l IHl]; [reflexivity|]. cbn [map]. f_equal; [apply IH|exact IHl].
Qed.
Lemma primary_symbol_bare p : option_map bare_symbol (primary_symbol (bare_primary p)) = option_map bare_symbol (primary_symbol p).
Proof.
  destruct p as [[t|t|x y|i|t r|t r]|n|[r [its e]]|s]; try reflexivity.
  - cbn [bare_primary primary_symbol option_map]. f_equal. exact (item_symbol_bare (INode n)).
  - cbn [bare_primary primary_symbol option_map rn_reference rn_payload bare wt_item bare_symbol]. do 3 f_equal. rewrite bare_payload_items, !payload_symbols_map. cbn [pl_items]. rewrite !map_map.
    apply map_ext. apply item_symbol_bare.
Qed.
Lemma file_symbols_bare f g : bare_file f = bare_file g -> map bare_symbol (file_symbols f) = map bare_symbol (file_symbols g).
Proof.
  assert (X : forall l, map bare_symbol (filter_map primary_symbol l) = map bare_symbol (filter_map primary_symbol (map bare_primary l))).
  { induction l as [|p l IH]; [reflexivity|]. cbn [map filter_map]. pose proof (primary_symbol_bare p) as E.
    destruct (primary_symbol (bare_primary p)), (primary_symbol p); try discriminate E; [|exact IH]. injection E as E. cbn [map]. rewrite IH, E. reflexivity. }
  intros E. unfold file_symbols. rewrite X, (X (fl_elements g)). unfold bare_file in E. rewrite E. reflexivity.
Qed.

(** *** C113: to each session there is a session with the documents (and the files on the disk) in the other layout, in which the server publishes the same
    remarks for the same documents in the same order, apart from places, and gives the same outlines. *)
Theorem C113_relaid_session : forall fuel ms ms' sv, Forall (fair fuel) ms -> Forall (fair fuel) ms' -> Forall2 relaid_message ms ms' -> conversation fuel ms sv ->
  exists sv', conversation fuel ms' sv' /\ same_publications (sv_sent sv) (sv_sent sv')
    /\ forall fs fs' u, relaid fs fs' -> option_map (map bare_symbol) (document_symbol fs u sv) = option_map (map bare_symbol) (document_symbol fs' u sv').
Proof.
  intros fuel ms ms' sv Hf Hf' F C. destruct (conversation_spec _ _ _ C Hf) as (S & Inv & Es).
  destruct (session_relaid (LK := bare_likeness) _ _ _ _ S ms' (messages_any _ _ F)) as (U & pubs' & S' & P & N & SP);
    [eapply Forall_impl; [|exact Hf]; intros m [_ H]; exact H|eapply Forall_impl; [|exact Hf']; intros m [_ H]; exact H|].
  destruct (session_spec _ _ _ _ _ S' Hf') as (sv' & C' & E & At & _ & _ & _ & Inv'). exists sv'. split; [exact C'|]. split; [rewrite E; exact SP|].
  intros fs fs' u Hr. destruct (answers_alike fs' U (pj_incl (sv_project sv)) default_severities [] sv' u pos_zero At Inv' (session_tidy _ _ _ _ S')) as (_ & _ & ->).
  unfold document_symbol, get_root, get_file. destruct (to_file_path u) as [p|]; [|reflexivity]. cbn [sv_project pj_files]. rewrite <- (proj1 Hr).
  destruct (fs_canon fs p) as [q|]; [|reflexivity]. pose proof (paired_table _ _ P q) as Rq.
  destruct (m_get str_eq_dec q (pj_files (sv_project sv))) as [v|], (m_get str_eq_dec q U) as [w|]; try contradiction; [|reflexivity].
  pose proof (rf_tree _ _ Rq) as Ht. unfold tree_like in Ht. destruct (pf_file v) as [f|] eqn:Ef, (pf_file w) as [g|] eqn:Eg; try contradiction; [|reflexivity].
  cbn [option_map]. f_equal. apply file_symbols_bare, Ht.
Qed.
Print Assumptions C113_relaid_session.

(** the files of [ex47] and the messages of C109 with line breaks and a comment *)
Definition ex113 : list (fpath * str) := [(bs "/a.dts", bs ""); (bs "/b.dtsi", bs "/
{ }")].
Definition ms113 : list note :=
  [NInitialize []; NOpen (FileUri (bs "/a.dts")) (bs "/dts-v1/;
/include/ ""/b.dtsi"" // see there
/ {
  p = <&l>;
};"); NOpen (FileUri (bs "/b.dtsi")) (bs "/ {
  l: n { };
};"); NClose (FileUri (bs "/a.dts")); NConfigure [bs "/inc"]].
Example C113_case : Forall2 relaid_message (map (fun n => (mem_fs ex47, n)) ms109) (map (fun n => (mem_fs ex113, n)) ms113)
  /\ Forall (fair 5) (map (fun n => (mem_fs ex47, n)) ms109) /\ Forall (fair 5) (map (fun n => (mem_fs ex113, n)) ms113)
  /\ exists sv, conversation 5 (map (fun n => (mem_fs ex47, n)) ms109) sv /\ map (fun p => length (snd p)) (sv_sent sv) = [2; 1; 0; 0; 0]%nat.
Proof.
  assert (D : relaid (mem_fs ex47) (mem_fs ex113)).
  { apply mem_relaid. unfold ex47, ex113. constructor; [|constructor; [|constructor]]; (split; [reflexivity|split; [|split; vm_compute; reflexivity]]); apply relaid_check; vm_compute; auto. }
  split; [|split; [|split]].
  - unfold ms109, ms113. cbn [map]. repeat (constructor; [split; [exact D|cbn [snd relaid_note]; first [reflexivity|split; [reflexivity|apply relaid_check; vm_compute; auto]]]|]). constructor.
  - apply Forall_forall. intros m Hm. apply in_map_iff in Hm. destruct Hm as (n & <- & Hn). split; [cbn [fst]; apply mem_disk; [reflexivity|cbn; lia]|].
    cbn [snd]. repeat (destruct Hn as [<-|Hn]; [cbn [note_valid]; first [exact I|vm_compute; reflexivity]|]). destruct Hn.
  - apply Forall_forall. intros m Hm. apply in_map_iff in Hm. destruct Hm as (n & <- & Hn). split; [cbn [fst]; apply mem_disk; [reflexivity|cbn; lia]|].
    cbn [snd]. repeat (destruct Hn as [<-|Hn]; [cbn [note_valid]; first [exact I|vm_compute; reflexivity]|]). destruct Hn.
  - remember (run109 ms109 server_new) as r eqn:Er.
    assert (K : match r with Done sv => map (fun p => length (snd p)) (sv_sent sv) = [2; 1; 0; 0; 0]%nat | _ => False end) by (rewrite Er; vm_compute; reflexivity).
    destruct r as [sv| |]; [|contradiction|contradiction]. exists sv. split; [|exact K]. exact (run_conversation ms109 [] server_new sv (cv_start 5) (eq_sym Er)).
Qed.
