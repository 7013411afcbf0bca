(** Property theorems on exact diagnostics about names: C93 *)
From Verif Require Import Parser LexSpec ReaderProofs Utf8 LexerProofs LexerProofs2 LexerProofs3 ParserBase ParserSafe ParserSafe2
  Grammar NameProofs TokParser ParserSim GrammarComplete GrammarSound ParserReport TreeSpec TreeProofs PropsParser PropsGrammar
  Utf8Adequacy PropsReport PropsPlaces NameReport.

(** ** C93 *)
Lemma naming_sim ds ds' : Forall2 diag_sim ds ds' -> filter naming ds = filter naming ds'.
Proof.
  induction 1 as [|d d' ds ds' (H1 & H2 & H3 & H4) _ IH]; [reflexivity|]. cbn [filter].
  assert (E : naming d = naming d') by (unfold naming; rewrite H1; reflexivity). rewrite <- E.
  destruct (naming d) eqn:Er; [|exact IH]. rewrite IH. f_equal. unfold naming in Er.
  destruct d as [k sp so m], d' as [k' sp' so' m']. cbn [dg_kind dg_span dg_source dg_msg] in *.
  destruct H4 as [H|[H|H]]; [rewrite H in Er; discriminate|rewrite H in Er; discriminate|]. congruence.
Qed.
Lemma both (P Q : token -> Prop) l : Forall P l -> Forall Q l -> Forall (fun t => P t /\ Q t) l.
Proof. induction 1; intros H'; inversion H'; subst; constructor; auto. Qed.

(** All diagnostics of the five codes about names, in order, with their spans, sources and messages: the
    tree's names have exactly those that [nsite_report] asks for. *)
Theorem C93_names_exact : forall incl text src f ds,
  valid_utf8 text = true -> parses incl text src f ds ->
  nreport src (tok_at text src) (file_names f) (filter naming ds).
Proof.
  intros incl text src f ds Hv (s & E & <-). destruct (tokenize_total text src Hv) as [toks Ht].
  pose proof (parse_sim incl text src toks Hv Ht) as H. rewrite E in H. unfold t_parse in H.
  apply (tokenize_iff text src toks Hv) in Ht.
  assert (Ho : Forall (fun t => tok_ok t /\ tok_at text src t) toks)
    by (apply both; [eapply lexed_ok; [exact Ht|exact Hv]|eapply lexed_at; [exact Ht|reflexivity]]).
  assert (Hr : forall p, Forall (fun t => tok_ok t /\ tok_at text src t) (relex text src p))
    by (intros p; apply both; [apply relex_ok; exact Hv|apply relex_at; exact Hv]).
  pose proof (says_file src (tok_at text src) incl (relex text src) Hr (S (S (length text))) toks Ho []) as G.
  destruct (t_p_file src incl (relex text src) _ (mkTS toks [])) as [f' st|d st|]; try contradiction.
  destruct H as [<- Hd], G as (new & E' & _ & R). cbn [app] in E'. rewrite <- E' in R.
  rewrite (naming_sim _ _ Hd). exact R.
Qed.
Print Assumptions C93_names_exact.

(** every such diagnostic is about some name of the tree, or about a label of the text before a closing brace *)
Definition about (text : list N) (src : fpath) (f : dts_file) (d : diag) : Prop := exists x l,
  In x (file_names f) /\ nsite_report src (tok_at text src) x l /\ In d l.
Theorem C93_every_complaint_has_a_name : forall incl text src f ds d,
  valid_utf8 text = true -> parses incl text src f ds -> In d ds -> naming d = true -> about text src f d.
Proof.
  intros incl text src f ds d Hv H Hd Hn. pose proof (C93_names_exact incl text src f ds Hv H) as R.
  assert (Hin : In d (filter naming ds)) by (apply filter_In; auto).
  clear H Hd. unfold about. revert R Hin. generalize (filter naming ds) (file_names f). intros l ns R.
  induction R as [|x l0 a b Hx _ IH]; intros Hin; [destruct Hin|]. apply in_app_iff in Hin. destruct Hin as [Hin|Hin].
  - exists x, a. split; [left; reflexivity|auto].
  - destruct (IH Hin) as (y & l1 & H1 & H2). exists y, l1. split; [right; exact H1|exact H2].
Qed.
Print Assumptions C93_every_complaint_has_a_name.

(** names that break no rule *)
Definition fine (allowed start : N -> Prop) (s : str) : Prop :=
  Forall allowed s /\ (length s <= 31)%nat /\ exists c r, s = c :: r /\ start c.
Definition fine_label (s : str) : Prop := fine label_char (fun c => letter c \/ c = cUnder) s.
Definition fine_property (s : str) : Prop := fine name_char (fun _ => True) s.
Definition fine_node (n : node_name) : Prop :=
  n = mkNN (bs "__symbols__") None
  \/ (fine node_char letter (nn_name n) /\ forall a, nn_addr n = Some a -> fine node_char (fun _ => True) a).
Definition fine_site (x : nsite) : Prop :=
  match x with
  | NLabel w => fine_label (wt_item w)
  | NProperty w => fine_property (wt_item w)
  | NNode w => fine_node (wt_item w)
  | NRef (mkWT (RefLabel s) _) => fine_label s
  | NRef (mkWT (RefPath p) t) => ~ is (Ref (TRefPath [])) t /\ Forall fine_node p
  | NEnd => True
  end.
Lemma split_pure (allowed : N -> Prop) u e v : Forall allowed (u ++ e ++ v) -> (forall c, allowed c -> c < 128) ->
  forall c, e = encode_char c -> scalar c -> allowed c.
Proof.
  intros H Ha c -> Hs. apply Forall_app in H. destruct H as [_ H]. apply Forall_app in H. destruct H as [H _].
  unfold encode_char in H. destruct (N.ltb_spec c 128) as [Hc|Hc]; [exact (Forall_inv H)|].
  exfalso. destruct (c <? 2048); [|destruct (c <? 65536)]; apply Forall_inv, Ha in H;
    (eapply N.le_lt_trans in H; [|apply N.le_add_r]; revert H; vm_compute; discriminate).
Qed.
Lemma fine_silent src (allowed start : N -> Prop) what t s ds : (forall c, allowed c -> c < 128) -> fine allowed start s ->
  name_report src allowed start what t s ds -> ds = [].
Proof.
  intros Ha (H1 & H2 & c & r & E & H3) H. destruct H as [| u c' v E' Hs Hu Hc | | E' | c' r' E' Hf Hl Hst]; [reflexivity| |lia| |].
  - exfalso. apply Hc. rewrite E' in H1. eapply split_pure; [exact H1|exact Ha|reflexivity|exact Hs].
  - rewrite E' in E. discriminate E.
  - rewrite E' in E. injection E as -> ->. contradiction.
Qed.
Lemma fine_node_silent src t n ds : fine_node n -> node_report src t n ds -> ds = [].
Proof.
  intros Hf H. destruct H as [E|ds Hn En Hr|a ds da Ea H1 H2]; [reflexivity| |].
  - destruct Hf as [->|[Hf _]]; [contradiction|]. eapply fine_silent; [exact node_char_ascii|exact Hf|exact Hr].
  - destruct Hf as [->|[Hf Hg]]; [discriminate|].
    rewrite (fine_silent _ _ _ _ _ _ _ node_char_ascii Hf H1), (fine_silent _ _ _ _ _ _ _ node_char_ascii (Hg a Ea) H2). reflexivity.
Qed.
Lemma fine_path_silent src t p ds : Forall fine_node p -> path_report src t p ds -> ds = [].
Proof.
  intros Hf H. induction H as [|n p d ds Hn _ IH]; [reflexivity|]. inversion Hf; subst.
  rewrite (fine_node_silent _ _ _ _ H1 Hn), (IH H2). reflexivity.
Qed.
Lemma fine_site_silent text src x ds : fine_site x -> (forall t s, tok_at text src t -> is (Label s) t -> fine_label s) ->
  nsite_report src (tok_at text src) x ds -> ds = [].
Proof.
  intros Hf Hl H. destruct H; cbn [fine_site wt_item] in Hf; try reflexivity.
  - eapply fine_silent; [exact label_char_ascii|exact Hf|eassumption].
  - eapply fine_silent; [exact name_char_ascii|exact Hf|eassumption].
  - eapply fine_node_silent; eassumption.
  - eapply fine_silent; [exact label_char_ascii|exact Hf|eassumption].
  - eapply fine_path_silent; [apply Hf|eassumption].
  - destruct Hf as [Hf _]. contradiction.
  - eapply fine_silent; [exact label_char_ascii|eapply Hl; eassumption|eassumption].
Qed.
(** legal names are never complained about *)
Theorem C93_fine_names_are_silent : forall incl text src f ds,
  valid_utf8 text = true -> parses incl text src f ds ->
  Forall fine_site (file_names f) -> (forall t s, tok_at text src t -> is (Label s) t -> fine_label s) ->
  filter naming ds = [].
Proof.
  intros incl text src f ds Hv H Hf Hl. pose proof (C93_names_exact incl text src f ds Hv H) as R.
  revert R Hf. generalize (filter naming ds) (file_names f). intros l ns R. induction R as [|x l0 a b Hx _ IH]; intros Hf; [reflexivity|].
  inversion Hf; subst. rewrite (fine_site_silent text src x a H2 Hl Hx), (IH H3). reflexivity.
Qed.
Print Assumptions C93_fine_names_are_silent.
(** six names of which each breaks a rule, and an unused label before the brace; and a text with fine names *)
Definition odd_names : str :=
  bs "/ { a-: _n@1 { }; b = <&{}>, & ; a#+a@1 { }; abcdefghijabcdefghijabcdefghijkl = <1>; d.: };".
Example C93_case : exists f ds, parses [] odd_names [] f ds
  /\ map (fun d => (dg_kind d, pos_char (span_start (dg_span d)), dg_msg d)) (filter naming ds)
     = [ (IllegalChar, 5, bs "Illegal char '-' in label");
         (IllegalStart, 8, bs "node name may not start with _");
         (PathCannotBeEmpty, 23, bs "Path cannot be empty");
         (ExpectedName, 29, bs "Expected label");
         (IllegalChar, 34, bs "Illegal char '#' in node name");
         (NameTooLong, 45, bs "property should only have 31 characters but has 32 characters");
         (IllegalChar, 86, bs "Illegal char '.' in label") ].
Proof. eexists _, _. split; [eexists; split; [vm_compute; reflexivity|reflexivity]|]. vm_compute. reflexivity. Qed.
Example C93_fine_case : exists f ds, parses [] (bs "/ { l: n@1 { a = <&l &{/n@1}>; }; };") [] f ds
  /\ map (fun x => match x with
       | NLabel w => wt_item w | NProperty w => wt_item w | NNode w => nn_name (wt_item w)
       | NRef (mkWT (RefLabel s) _) => s | NRef (mkWT (RefPath p) _) => concat (map nn_name p) | NEnd => bs "}" end) (file_names f)
     = [bs "l"; bs "n"; bs "a"; bs "l"; bs "n"; bs "}"; bs "}"]
  /\ ds = [].
Proof. eexists _, _. split; [eexists; split; [vm_compute; reflexivity|reflexivity]|]. split; vm_compute; reflexivity. Qed.
