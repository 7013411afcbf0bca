(** C90 The code of a diagnostic tells where it comes from *)
From Verif Require Import Parser Kinds Unbalanced AnalysisSpec AnalysisProofs ProjectSpec ProjectProofs2 ProjectHistory PropsAnalysis PropsProject PropsOnce Tests.

Definition syntax_codes : list error_code :=
  [UnexpectedEOF; Expected; ExpectedName; OddNumberOfBytestringElements; IntError; NameTooLong; IllegalChar; IllegalStart;
   PathCannotBeEmpty; PropertyAfterNode; IncorrectDirective; ParserError; IOError].
Definition meaning_codes : list error_code :=
  [NonDtsV1; UnresolvedReference; NonStringInCompatible; MisplacedDtsHeader; DuplicateDirective; IOError; ErrorsInInclude; CyclicDependencyError].
Definition within (l : list error_code) (ds : list diag) : Prop := forall d, In d ds -> In (dg_kind d) l.
Lemma within_app l a b : within l a -> within l b -> within l (a ++ b).
Proof. intros A B d Hd. apply in_app_or in Hd. destruct Hd; auto. Qed.
Lemma within_kind l k ds : In k l -> (forall d, In d ds -> dg_kind d = k) -> within l ds.
Proof. intros H A d Hd. rewrite (A d Hd). exact H. Qed.
Lemma within_nil l : within l [].
Proof. intros d []. Qed.

Lemma element_codes fs pj src ft ps ds h p dp h' es : element fs pj src ft ps ds h p dp h' es -> within meaning_codes es.
Proof.
  intros H. destruct H as [t es H|t|a l|t r|s|i ds' h' es H|t r p found es H1 H2|n|r p found es H1 H2 H3|r H1]; try apply within_nil.
  - intros d Hd. destruct H; cbn [In] in Hd; try contradiction; destruct Hd as [<-|[]]; cbn; tauto.
  - intros d Hd. destruct H as [e He|p cycle Hp _|p Hp _ _|p f ds' es Hp _ _ _ He]; cbn [In] in Hd; try contradiction;
      try (destruct Hd as [<-|[]]; cbn; tauto). destruct He as [[_ ->]|[_ ->]]; [destruct Hd as [<-|[]]; cbn; tauto|contradiction].
  - apply (within_kind _ UnresolvedReference); [cbn; tauto|]. intros d Hd. exact (blame_kind _ _ _ _ _ _ H2 Hd).
  - apply (within_kind _ NonStringInCompatible); [cbn; tauto|]. intros d Hd. exact (compatible_kind _ _ Hd).
  - apply within_app.
    + apply (within_kind _ UnresolvedReference); [cbn; tauto|]. intros d Hd. exact (blame_kind _ _ _ _ _ _ H3 Hd).
    + apply (within_kind _ NonStringInCompatible); [cbn; tauto|]. intros d Hd. exact (compatible_kind _ _ Hd).
  - apply (within_kind _ NonStringInCompatible); [cbn; tauto|]. intros d Hd. exact (compatible_kind _ _ Hd).
Qed.
Lemma analysis_codes fs pj src ft h l ds h' es : analysis_of fs pj src ft h l ds h' es -> within meaning_codes es.
Proof.
  intros H. destruct H as [ds h' es vs rs H1 H2 H3]. apply within_app; [|apply within_app].
  - clear - H1. revert H1. generalize (@nil primary) (@nil def). revert h es. induction l as [|p l IH]; intros h es ps d0 H.
    + apply elements_nil_inv in H. destruct H as (_ & _ & ->). apply within_nil.
    + apply elements_cons_inv in H. destruct H as (dp & h1 & ep & e2 & A & B & ->). apply within_app; [exact (element_codes _ _ _ _ _ _ _ _ _ _ _ A)|exact (IH _ _ _ _ B)].
  - destruct H2; [|apply within_nil]. intros d [<-|[]]. cbn. tauto.
  - clear - H3. induction H3 as [|r l1 found es es' _ Hb _ IH]; [apply within_nil|]. apply within_app; [|exact IH].
    apply (within_kind _ UnresolvedReference); [cbn; tauto|]. intros d Hd. exact (blame_kind _ _ _ _ _ _ Hb Hd).
Qed.

(** the diagnostics of the parser (with the includes it followed) and of the analysis of a stored file *)
Definition coded (v : pfile) : Prop :=
  within syntax_codes (pf_pdiags v) /\ within meaning_codes (pf_adiags v) /\ (pf_file v = None -> pf_adiags v = [] /\ exists d, pf_pdiags v = [d]).
Lemma syntax_code d : pk d -> nu d -> In (dg_kind d) syntax_codes.
Proof. unfold pk, nu, parser_kind, syntax_codes. cbn [In]. destruct (dg_kind d); intros K Q; try tauto. all: exfalso; intuition discriminate. Qed.
Lemma stored_coded fs incl root present k t ft v : valid_utf8 t = true -> stored fs incl root present k t ft v -> coded v.
Proof.
  intros Hv (E1 & E2 & E3 & E4 & H). unfold coded. rewrite E4. pose proof (parser_kinds (include_dirs incl k) t k Hv) as K. pose proof (balanced_kinds (include_dirs incl k) t k Hv) as Q.
  destruct H as [(f & s & Ep & Ef & Ed)|(d & s & Ep & Ef & Ed)]; rewrite Ep in K, Q; rewrite Ed.
  - split; [|split; [apply within_nil|rewrite Ef; discriminate]]. apply within_app.
    + intros d Hd. rewrite Forall_forall in K. rewrite Forall_forall in Q. exact (syntax_code d (K d Hd) (Q d Hd)).
    + apply (within_kind _ IOError); [cbn; tauto|]. intros d Hd. apply in_flat_map in Hd. destruct Hd as (p & _ & Hd). unfold element_diags in Hd.
      destruct p as [[]| | |]; try contradiction. unfold include_diags in Hd. destruct (include_path fs i) as [q|e]; [|destruct Hd as [<-|[]]; reflexivity].
      destruct (in_dec _ _ _); [contradiction|]. destruct (read_to_string fs q); [contradiction|]. destruct Hd as [<-|[]]; reflexivity.
  - split; [|split; [apply within_nil|intros _; split; [reflexivity|exists d; reflexivity]]]. intros x [<-|[]]. exact (syntax_code d (proj1 K) Q).
Qed.
(** Codes of the syntax come from reading the text and codes of the meaning from the analysis; only the i/o error is in both lists. A file with a fatal
    syntax error has exactly this one diagnostic. *)
Theorem C90_codes : forall pj k v, reached pj -> fget k (pj_files pj) = Some v -> coded v.
Proof.
  intros pj k v H. revert k v. induction H as [|fs ps pj H IH|fs u fuel o name text ft pj pj' H IH Hf Hl Ho Hv E|fs p pj H IH].
  - intros k v X. discriminate.
  - exact IH.
  - destruct (fs_canon fs name) as [root|e] eqn:Ec; [|unfold add_file_with_text in E; rewrite Ec in E; discriminate].
    destruct (add_done _ _ _ _ _ _ _ _ _ _ Hf Hl Ho Ec Hv H E) as (files' & order & L & Hcl & Hko & P & Hp' & Ei & Es & A & S).
    intros k v Hk. pose proof (S k) as Sk. rewrite Hk in Sk. destruct (fget k files') as [w|] eqn:Ew; [|contradiction].
    assert (Cw : coded w).
    { destruct (load_cases _ _ _ _ _ _ _ Hv L k w Ew) as [[_ X]|(X & t & ft' & Ht & Xt & T)]; [exact (IH k w X)|exact (stored_coded _ _ _ _ _ _ _ _ Ht T)]. }
    destruct Cw as (C1 & C2 & C3). destruct A as (_ & _ & A3 & A4). destruct (pf_file w) as [f|] eqn:Ef.
    + assert (Hin : In k order) by (apply (Permutation_in _ (Permutation_sym P)), (m_get_key _ _ _ _ Ew)).
      apply in_split in Hin. destruct Hin as (k1 & k2 & Eo).
      destruct (A4 k1 k k2 w f Eo Ew Ef) as (pjk & a & a' & ac & es & B1 & B2 & B3 & _ & B4 & _). rewrite B1 in Hk. injection Hk as <-.
      destruct (analysed_spec fs pjk f (pf_type w) ([] ++ deps_of fs files' k1) ac es B4) as (ds & h' & D1 & _); [exists (o_an o), a, a'; split; [apply Ho|split; assumption]|].
      unfold coded. cbn [store_result pf_adiags pf_pdiags pf_file snd]. split; [exact C1|]. split; [exact (analysis_codes _ _ _ _ _ _ _ _ _ D1)|]. rewrite Ef. discriminate.
    + rewrite (A3 k w Ew Ef) in Hk. injection Hk as <-. split; [exact C1|]. split; [exact C2|]. intros _. exact (C3 eq_refl).
  - intros k v Hk. destruct (fs_canon fs p) as [q|e] eqn:Ec; [|unfold remove_file in Hk; rewrite Ec in Hk; exact (IH k v Hk)].
    rewrite (remove_get fs p q pj Ec) in Hk. destruct (str_eq_dec k q); [discriminate|]. exact (IH k v Hk).
Qed.
Print Assumptions C90_codes.

(** Every code in the lists occurs; together with C90_codes: property_referenced_by_node is the one code that is never reported. *)
Definition codes_of (l : list (fpath * str)) (name : str) : list error_code :=
  match add_file_with_text 5 id_oracle (mem_fs l) name (match m_get str_eq_dec name l with Some t => t | None => [] end) DtSource project_new with
  | Done pj => flat_map (fun kv => map dg_kind (pf_diags (snd kv))) (pj_files pj)
  | _ => []
  end.
Definition one (t : str) : list error_code := codes_of [(bs "/a.dts", t)] (bs "/a.dts").
Definition witness (k : error_code) : list error_code :=
  match k with
  | UnexpectedEOF => one (bs "/ {")
  | Expected => one (bs "/ }")
  | ExpectedName => one (bs "/ { a@ { }; };")
  | OddNumberOfBytestringElements => one (bs "/ { a = [0]; };")
  | IntError => one (bs "/ { a = <08>; };")
  | NonDtsV1 => one (bs "")
  | NameTooLong => one (bs "/ { abcdefghijabcdefghijabcdefghijabcdefghij { }; };")
  | IllegalChar => one (bs "/ { a?b { }; };")
  | IllegalStart => one (bs "/ { ,a { }; };")
  | UnresolvedReference => one (bs "/dts-v1/; &l { };")
  | PropertyReferencedByNode => []
  | NonStringInCompatible => one (bs "/dts-v1/; / { compatible = <1>; };")
  | PathCannotBeEmpty => one (bs "&{} { };")
  | PropertyAfterNode => one (bs "/ { n { }; p; };")
  | UnbalancedParentheses => []
  | MisplacedDtsHeader => one (bs "/ { }; /dts-v1/;")
  | DuplicateDirective => one (bs "/dts-v1/; /dts-v1/;")
  | IncorrectDirective => one (bs "/ { /omit-if-no-ref/ p; };")
  | ParserError => one (bs "/include/ ""b"";")
  | IOError => one (bs "/include/ ""b""")
  | ErrorsInInclude => codes_of [(bs "/a.dts", bs "/include/ ""/b.dtsi"""); (bs "/b.dtsi", bs "/ {")] (bs "/a.dts")
  | CyclicDependencyError => one (bs "/include/ ""/a.dts""")
  end.
Theorem C90_occur : forall k, In k (syntax_codes ++ meaning_codes) -> In k (witness k).
Proof.
  intros k Hk. assert (H : forallb (fun k => existsb (error_code_eqb k) (witness k)) (syntax_codes ++ meaning_codes) = true) by (vm_compute; reflexivity).
  rewrite forallb_forall in H. specialize (H k Hk). apply existsb_exists in H. destruct H as (x & Hx & E). unfold error_code_eqb in E.
  destruct (error_code_eq_dec k x) as [->|]; [exact Hx|discriminate].
Qed.
Print Assumptions C90_occur.

(** ** C91 *)
(** Two mistakes have a code and are never reported under it: a label of a property where a node is needed, and parentheses that are not closed. *)
Theorem C91_never : forall pj k v d, reached pj -> fget k (pj_files pj) = Some v -> In d (pf_diags v) ->
  dg_kind d <> PropertyReferencedByNode /\ dg_kind d <> UnbalancedParentheses.
Proof.
  intros pj k v d H Hk Hd. destruct (C90_codes pj k v H Hk) as (A & B & _). unfold pf_diags in Hd. apply in_app_or in Hd.
  destruct Hd as [Hd|Hd]; [apply A in Hd|apply B in Hd]; cbn [syntax_codes meaning_codes In] in Hd; split; intros E; rewrite E in Hd; cbn [In] in Hd; intuition discriminate.
Qed.
Print Assumptions C91_never.
(** so the claim is false: the first text is accepted without a word, of the second only its end is reported *)
Theorem C91_refuted : one (bs "/dts-v1/; / { l: p; n { q = <&l>; }; };") = [] /\ one (bs "/dts-v1/; / { a = <(1 + (2>; b; };") = [UnexpectedEOF].
Proof. split; vm_compute; reflexivity. Qed.
Print Assumptions C91_refuted.
