(** C114: in another layout, the same place of a document still says the same *)
From Verif Require Import Base DisplayProofs TreeProofs LexSpec LexerProofs2 Parser Analysis AnalysisSpec AnalysisProofs Visitor PropsVisitor Project ProjectSpec ProjectProofs2 ProjectHistory
  PropsAnalysis PropsHistory PropsReformat PropsLayout PropsProject Server ServerProofs PropsServer Whole PropsWhole Session PropsSession Relaid PropsRelaid PropsRelaidSession Tests.
From Coq Require Import Permutation.

(** ** The same place in two layouts of a document *)
(** [same_place f g c c']: the cursors are on the same label, reference or include of the two trees, or both on none *)
Definition same_place (f g : dts_file) (c c' : position) : Prop :=
  Forall2 (fun s s' => on_spot c s <-> on_spot c' s') (file_spots f) (file_spots g).
Definition bare_spot (s : spot) : spot :=
  match s with
  | SLabel l => SLabel (bare l)
  | SRef r => SRef (bare r)
  | SInclude i => SInclude (mkInclude no_token (bare (in_file_name i)) (in_paths i))
  end.
Definition bare_found (x : item_at_cursor) : item_at_cursor :=
  match x with
  | AtReference r => AtReference r
  | AtLabel l => AtLabel (bare l)
  | AtInclude i => AtInclude (mkInclude no_token (bare (in_file_name i)) (in_paths i))
  end.
Lemma label_spots_bare l : map bare_spot (label_spots l) = label_spots (option_map bare l).
Proof. destruct l; reflexivity. Qed.
Lemma flat_spots_bare {A} (f : A -> list spot) (b : A -> A) l : Forall (fun x => map bare_spot (f x) = f (b x)) l -> map bare_spot (flat_map f l) = flat_map f (map b l).
Proof. induction 1 as [|x l H _ IH]; [reflexivity|]. cbn [flat_map map]. rewrite map_app, H, IH. reflexivity. Qed.
Lemma value_spots_bare v : map bare_spot (value_spots v) = value_spots (bare_value v).
Proof.
  destruct v as [s|a cs b|r|a ss b]; try reflexivity. cbn [value_spots bare_value]. apply flat_spots_bare, Forall_forall. intros [n|r|] _; reflexivity.
Qed.
Lemma property_spots_bare p : map bare_spot (property_spots p) = property_spots (bare_property p).
Proof.
  unfold property_spots. rewrite map_app, label_spots_bare. cbn [bare_property pr_label pr_values]. f_equal. apply flat_spots_bare, Forall_forall. intros v _. apply value_spots_bare.
Qed.
Lemma item_spots_bare i : map bare_spot (item_spots i) = item_spots (bare_item i).
Proof.
  apply (item_rect' (fun n => map bare_spot (node_spots n) = node_spots (bare_node n)) (fun i => map bare_spot (item_spots i) = item_spots (bare_item i))); clear i; try reflexivity.
  - intros l nm its e o H. cbn [bare_node]. rewrite bare_payload_items. cbn [node_spots].
    change (fun i : item => match i with IProperty p => property_spots p | INode n => node_spots n | _ => [] end) with item_spots.
    rewrite map_app, label_spots_bare. f_equal. apply flat_spots_bare, H.
  - intros p. apply property_spots_bare.
  - intros n H. exact H.
Qed.
Lemma primary_spots_bare p : map bare_spot (primary_spots p) = primary_spots (bare_primary p).
Proof.
  destruct p as [[t|t|x y|i|t r|t r]|n|[r [its e]]|s]; try reflexivity.
  - exact (item_spots_bare (INode n)).
  - cbn [bare_primary primary_spots rn_reference rn_payload]. rewrite bare_payload_items. cbn [pl_items map]. f_equal. apply flat_spots_bare, Forall_forall. intros i _. apply item_spots_bare.
Qed.
Lemma blind_bare p : option_map bare (blind p) = blind (bare_primary p).
Proof. destruct p as [[t|t|x y|i|t r|t r]|n|r|s]; reflexivity. Qed.

Lemma first_like c c' l l' : map bare_spot l = map bare_spot l' -> Forall2 (fun s s' => on_spot c s <-> on_spot c' s') l l' ->
  option_map bare_found (first_at c l) = option_map bare_found (first_at c' l').
Proof.
  intros E F. induction F as [|s s' l l' H _ IH]; [reflexivity|]. cbn [map] in E. injection E as Es E. specialize (IH E).
  unfold first_at in *. cbn [find_map].
  assert (X : span_contains (spot_span s) c = span_contains (spot_span s') c').
  { unfold on_spot in H. destruct (span_contains (spot_span s) c) eqn:A, (span_contains (spot_span s') c') eqn:B; try reflexivity.
    - apply contains_spec in A. apply H in A. apply contains_spec in A. congruence.
    - apply contains_spec in B. apply H in B. apply contains_spec in B. congruence. }
  rewrite X. destruct (span_contains (spot_span s') c'); [|exact IH]. cbn [option_map]. f_equal.
  destruct s as [a|a|a], s' as [b|b|b]; try discriminate Es; cbn [spot_item bare_found bare_spot] in *; unfold bare in *.
  - injection Es as Es. rewrite Es. reflexivity.
  - injection Es as Es. rewrite Es. reflexivity.
  - injection Es as E1 E2. rewrite E1, E2. reflexivity.
Qed.
Lemma file_at_like f g c c' : bare_file f = bare_file g -> same_place f g c c' -> option_map bare_found (file_at f c) = option_map bare_found (file_at g c').
Proof.
  unfold bare_file, same_place, file_at, file_spots. generalize (fl_elements g). induction (fl_elements f) as [|p l IH]; intros [|q m] E F; try discriminate E; [reflexivity|].
  cbn [map] in E. injection E as Ep E. cbn [flat_map] in F. apply Forall2_app_inv_l in F. destruct F as (a & b & F1 & F2 & Eab).
  assert (Es : map bare_spot (primary_spots p) = map bare_spot (primary_spots q)) by (rewrite !primary_spots_bare, Ep; reflexivity).
  assert (La : length a = length (primary_spots q)).
  { pose proof (f_equal (@length _) Es) as L. rewrite !map_length in L. rewrite <- L. clear - F1. induction F1; cbn; congruence. }
  assert (a = primary_spots q /\ b = flat_map primary_spots m) as [-> ->].
  { clear - La Eab. symmetry in Eab. revert Eab La. generalize (flat_map primary_spots m) (primary_spots q). intros y x. revert a. induction x as [|s x IH]; intros [|t a] E L; try discriminate L; [split; [reflexivity|exact E]|].
    cbn [app] in E. injection E as <- E. injection L as L. destruct (IH a E L) as [-> ->]. auto. }
  cbn [find_map]. assert (X : option_map bare_found (primary_at c p) = option_map bare_found (primary_at c' q)).
  { pose proof (blind_bare p) as Bp. rewrite Ep, <- blind_bare in Bp. destruct (blind p) as [r|] eqn:B1, (blind q) as [r'|] eqn:B2; try discriminate Bp.
    - rewrite (blind_at c p r B1), (blind_at c' q r' B2). cbn [option_map] in *. injection Bp as Er. cbn [bare_found]. congruence.
    - rewrite (primary_first c p B1), (primary_first c' q B2). apply first_like; assumption. }
  destruct (primary_at c p), (primary_at c' q); try discriminate X; [exact X|]. exact (IH m E F2).
Qed.

(** ** Names in two layouts *)
Lemma referenced_like c d r : ctx_ok c -> ctx_ok d -> ctx_like c d -> option_map bare_node (get_referenced c r) = option_map bare_node (get_referenced d r).
Proof.
  intros [C1 C2] [D1 D2] [[A1 A2] [B1 B2]]. destruct r as [l|p]; cbn [get_referenced].
  - unfold get_node_by_label. destruct (m_get str_eq_dec l (ac_labels c)) as [x|] eqn:X.
    + destruct (A1 l x (m_get_in _ _ _ _ X)) as (y & Y & E). apply (m_in_get str_eq_dec) in Y; [|exact D1]. rewrite Y.
      apply lkl_bare in E. destruct x, y; try discriminate E; [|reflexivity]. cbn in E |- *. congruence.
    + destruct (m_get str_eq_dec l (ac_labels d)) as [y|] eqn:Y; [|reflexivity]. destruct (B1 l y (m_get_in _ _ _ _ Y)) as (x & X' & _).
      apply (m_in_get str_eq_dec) in X'; [congruence|exact C1].
  - unfold get_node_by_path. destruct (m_get npath_eq_dec p (ac_flat c)) as [x|] eqn:X.
    + destruct (A2 p x (m_get_in _ _ _ _ X)) as (y & Y & E). apply lk_bare in E. apply (m_in_get npath_eq_dec) in Y; [|exact D2]. rewrite Y. cbn. congruence.
    + destruct (m_get npath_eq_dec p (ac_flat d)) as [y|] eqn:Y; [|reflexivity]. destruct (B2 p y (m_get_in _ _ _ _ Y)) as (x & X' & _).
      apply (m_in_get npath_eq_dec) in X'; [congruence|exact C2].
Qed.
Lemma node_title n m : bare_node n = bare_node m -> nn_name (wt_item (nd_name n)) = nn_name (wt_item (nd_name m)).
Proof. destruct n as [l nm pl o], m as [l' nm' pl' o']. cbn [bare_node nd_name]. intros E. injection E as _ E _ _. rewrite E. reflexivity. Qed.

Lemma hover_like fs fs' T U i s1 s2 i' s1' s2' p c c' : relaid fs fs' -> relaid_table T U -> tidy T -> tidy U ->
  (forall f g, get_root fs (mkProject T i s1) p = Some f -> get_root fs' (mkProject U i' s1') p = Some g -> same_place f g c c') ->
  hover fs (FileUri p) c (mkServer (mkProject T i s1) s2) = hover fs' (FileUri p) c' (mkServer (mkProject U i' s1') s2').
Proof.
  intros Hr R Ht Hu Hp. unfold hover. cbn [to_file_path sv_project]. unfold find_at_pos, document_reference, get_analysis, get_root, get_file in *. cbn [pj_files] in *.
  rewrite <- (proj1 Hr) in *. destruct (fs_canon fs p) as [q|]; [|reflexivity]. specialize (R q).
  destruct (m_get str_eq_dec q T) as [v|] eqn:Ev, (m_get str_eq_dec q U) as [w|] eqn:Ew; try contradiction; [|reflexivity].
  destruct R as [_ _ Hf _ Hc]. unfold tree_like in Hf. destruct (pf_file v) as [f|], (pf_file w) as [g|]; try contradiction; [|reflexivity].
  pose proof (file_at_like f g c c' (proj1 Hf) (Hp f g eq_refl eq_refl)) as E.
  destruct (file_at f c) as [[r|l|j]|], (file_at g c') as [[r'|l'|j']|]; try discriminate E; try reflexivity; cbn [option_map bare_found] in E; injection E as E.
  - subst r'. unfold context_like in Hc. destruct (pf_ctx v) as [a|] eqn:Ea, (pf_ctx w) as [b|] eqn:Eb; try contradiction; [|reflexivity].
    pose proof (referenced_like a b r (Ht q v a Ev Ea) (Hu q w b Ew Eb) Hc) as X.
    destruct (get_referenced a r) as [n|], (get_referenced b r) as [m|]; try discriminate X; [|reflexivity]. injection X as X. cbn [option_map]. rewrite (node_title n m X). reflexivity.
  - rewrite E. reflexivity.
  - rewrite E. reflexivity.
Qed.

(** *** C114: if the documents of a session are laid out differently, there is a session in which hovering over the same place gives the same answer. *)
Theorem C114_hover : forall fuel ms ms' sv, Forall (fair fuel) ms -> Forall (fair fuel) ms' -> Forall2 relaid_message ms ms' -> conversation fuel ms sv ->
  exists sv', conversation fuel ms' sv' /\ same_publications (sv_sent sv) (sv_sent sv')
    /\ forall fs fs' p, relaid fs fs' ->
       ((exists f, get_root fs (sv_project sv) p = Some f) <-> (exists g, get_root fs' (sv_project sv') p = Some g))
       /\ forall c c', (forall f g, get_root fs (sv_project sv) p = Some f -> get_root fs' (sv_project sv') p = Some g -> same_place f g c c') ->
          hover fs (FileUri p) c sv = hover fs' (FileUri p) c' sv'.
Proof.
  intros fuel ms ms' sv Hf Hf' F C. destruct (conversation_spec _ _ _ C Hf) as (S & Inv & Es).
  destruct (session_relaid (LK := bare_likeness) _ _ _ _ S ms' (messages_any _ _ F)) as (U & pubs' & S' & P & N & SP);
    [eapply Forall_impl; [|exact Hf]; intros m [_ H]; exact H|eapply Forall_impl; [|exact Hf']; intros m [_ H]; exact H|].
  destruct (session_spec _ _ _ _ _ S' Hf') as (sv' & C' & E & At & _ & _ & _ & Inv'). exists sv'. split; [exact C'|]. split; [rewrite E; exact SP|].
  intros fs fs' p Hr. pose proof (paired_table _ _ P) as R.
  assert (Root : get_root fs' (sv_project sv') p = get_root fs' (mkProject U (pj_incl (sv_project sv)) default_severities) p).
  { unfold get_root, get_file. destruct (fs_canon fs' p) as [q|]; [|reflexivity]. pose proof (At q) as Aq. cbn [pj_files].
    destruct (m_get str_eq_dec q U) as [v|], (m_get str_eq_dec q (pj_files (sv_project sv'))) as [w|]; try contradiction; [|reflexivity]. destruct Aq as ((_ & Eq & _) & _). congruence. }
  split.
  - rewrite Root. unfold get_root, get_file. cbn [pj_files]. rewrite <- (proj1 Hr). destruct (fs_canon fs p) as [q|]; [|split; intros [x X]; discriminate X]. specialize (R q).
    destruct (m_get str_eq_dec q (pj_files (sv_project sv))) as [v|], (m_get str_eq_dec q U) as [w|]; try contradiction; [|split; intros [x X]; discriminate X].
    pose proof (rf_tree _ _ R) as Ht. unfold tree_like in Ht. destruct (pf_file v), (pf_file w); try contradiction; split; intros [x X]; try discriminate X; eauto.
  - intros c c' Hp. rewrite Root in Hp.
    destruct (answers_alike fs' U (pj_incl (sv_project sv)) default_severities [] sv' (FileUri p) c' At Inv' (session_tidy _ _ _ _ S')) as (_ & -> & _).
    assert (Esv : sv = mkServer (mkProject (pj_files (sv_project sv)) (pj_incl (sv_project sv)) (pj_sev (sv_project sv))) (sv_sent sv)) by (destruct sv as [[a b d] e]; reflexivity).
    rewrite Esv at 1. apply hover_like; [exact Hr|exact R|exact (session_tidy _ _ _ _ S)|exact (session_tidy _ _ _ _ S')|].
    intros f g Hf1 Hg. apply Hp; [|exact Hg]. destruct sv as [[a b d] e]. exact Hf1.
Qed.
Print Assumptions C114_hover.

(** a reference in the last line but one of a document, and in its only line *)
Definition ms114 : list note := [NOpen (FileUri (bs "/b.dtsi")) (bs "/ { l: n { }; };"); NOpen (FileUri (bs "/a.dts")) text47].
Definition ms114' : list note := [NOpen (FileUri (bs "/b.dtsi")) (bs "/ {
  l: n { };
};"); NOpen (FileUri (bs "/a.dts")) (bs "/dts-v1/;
/include/ ""/b.dtsi"" // see there
/ {
  p = <&l>;
};")].
Fixpoint run114 (fs : fsys) (ns : list note) (sv : server) : outcome server :=
  match ns with [] => Done sv | n :: r => obind (handle 5 id_oracle (fun l => l) fs n sv) (run114 fs r) end.
Lemma run114_conversation fs ns : forall ms sv sv', conversation 5 ms sv -> run114 fs ns sv = Done sv' -> conversation 5 (ms ++ map (fun n => (fs, n)) ns) sv'.
Proof.
  induction ns as [|n ns IH]; intros ms sv sv' C E; cbn [run114 map] in *.
  - rewrite app_nil_r. injection E as <-. exact C.
  - destruct (handle 5 id_oracle (fun l => l) fs n sv) as [sv1| |] eqn:E1; cbn [obind] in E; try discriminate E.
    change ((fs, n) :: map (fun n => (fs, n)) ns) with ([(fs, n)] ++ map (fun n => (fs, n)) ns). rewrite app_assoc.
    apply (IH _ sv1); [|exact E]. eapply cv_next; [exact C|apply id_order_ok| |exact E1]. intros l. apply Permutation_refl.
Qed.
Definition onb (c : position) (s : spot) : bool := span_contains (spot_span s) c.
Lemma place_check f g c c' : map (onb c) (file_spots f) = map (onb c') (file_spots g) -> same_place f g c c'.
Proof.
  unfold same_place. generalize (file_spots g). induction (file_spots f) as [|s l IH]; intros [|s' m] E; try discriminate E; constructor.
  - injection E as E _. unfold on_spot, onb in *. rewrite <- !contains_spec. rewrite E. reflexivity.
  - injection E as _ E. exact (IH m E).
Qed.
Example C114_case : exists sv sv' f g, conversation 5 (map (fun n => (mem_fs ex47, n)) ms114) sv /\ conversation 5 (map (fun n => (mem_fs ex113, n)) ms114') sv'
  /\ Forall2 relaid_message (map (fun n => (mem_fs ex47, n)) ms114) (map (fun n => (mem_fs ex113, n)) ms114')
  /\ get_root (mem_fs ex47) (sv_project sv) (bs "/a.dts") = Some f /\ get_root (mem_fs ex113) (sv_project sv') (bs "/a.dts") = Some g
  /\ same_place f g (mkPos 0 40) (mkPos 3 8)
  /\ hover (mem_fs ex47) (FileUri (bs "/a.dts")) (mkPos 0 40) sv = Some (bs "Node n")
  /\ hover (mem_fs ex113) (FileUri (bs "/a.dts")) (mkPos 3 8) sv' = Some (bs "Node n").
Proof.
  remember (run114 (mem_fs ex47) ms114 server_new) as r eqn:Er. remember (run114 (mem_fs ex113) ms114' server_new) as r' eqn:Er'.
  assert (K : match r, r' with
    | Done sv, Done sv' => match get_root (mem_fs ex47) (sv_project sv) (bs "/a.dts"), get_root (mem_fs ex113) (sv_project sv') (bs "/a.dts") with
        | Some f, Some g => map (onb (mkPos 0 40)) (file_spots f) = map (onb (mkPos 3 8)) (file_spots g)
        | _, _ => False end
      /\ hover (mem_fs ex47) (FileUri (bs "/a.dts")) (mkPos 0 40) sv = Some (bs "Node n")
      /\ hover (mem_fs ex113) (FileUri (bs "/a.dts")) (mkPos 3 8) sv' = Some (bs "Node n")
    | _, _ => False end) by (rewrite Er, Er'; vm_compute; auto).
  destruct r as [sv| |]; try contradiction. destruct r' as [sv'| |]; try contradiction. destruct K as (K & H1 & H2).
  destruct (get_root (mem_fs ex47) (sv_project sv) (bs "/a.dts")) as [f|] eqn:Ef; [|contradiction].
  destruct (get_root (mem_fs ex113) (sv_project sv') (bs "/a.dts")) as [g|] eqn:Eg; [|contradiction].
  exists sv, sv', f, g. split; [exact (run114_conversation _ ms114 [] server_new sv (cv_start 5) (eq_sym Er))|].
  split; [exact (run114_conversation _ ms114' [] server_new sv' (cv_start 5) (eq_sym Er'))|]. split; [|split; [exact Ef|split; [exact Eg|split; [apply place_check, K|split; assumption]]]].
  assert (D : relaid (mem_fs ex47) (mem_fs ex113)).
  { apply mem_relaid. unfold ex47, ex113. constructor; [|constructor; [|constructor]]; (split; [reflexivity|split; [|split; vm_compute; reflexivity]]); apply relaid_check; vm_compute; auto. }
  unfold ms114, ms114'. cbn [map]. repeat (constructor; [split; [exact D|cbn [snd relaid_note]; split; [reflexivity|apply relaid_check; vm_compute; auto]]|]). constructor.
Qed.
