(** A whole session of the language server: the spec of C109, and what its proof needs *)
From Verif Require Import Base Analysis AnalysisSpec AnalysisProofs Project ProjectSpec ProjectProofs2 ProjectHistory PropsAnalysis PropsRealise
  PropsHistory Parser Server ServerProofs PropsServer Whole PropsWhole.
From Coq Require Import Permutation.

(** what the client sends, apart from requests *)
Inductive note :=
| NInitialize (dirs : list str)
| NConfigure (dirs : list str)
| NOpen (u : uri) (text : str)
| NChange (u : uri) (texts : list str)
| NClose (u : uri).
Definition note_valid (n : note) : Prop :=
  match n with NOpen _ t => valid_utf8 t = true | NChange _ ts => Forall (fun t => valid_utf8 t = true) ts | _ => True end.

(** the server handles one after the other; the disk may change in between *)
Definition handle (fuel : nat) (o : oracle) (ok : list fpath -> list fpath) (fs : fsys) (n : note) (sv : server) : outcome server :=
  match n with
  | NInitialize dirs => Done (initialize fs dirs sv)
  | NConfigure dirs => did_change_configuration ok fs dirs sv
  | NOpen u t => did_open fuel o ok fs u t sv
  | NChange u ts => did_change fuel o ok fs u ts sv
  | NClose u => Done (did_close fs u sv)
  end.
Inductive conversation (fuel : nat) : list (fsys * note) -> server -> Prop :=
| cv_start : conversation fuel [] server_new
| cv_next ms sv fs n o ok sv' : conversation fuel ms sv -> order_ok o -> shuffle ok -> handle fuel o ok fs n sv = Done sv' ->
    conversation fuel (ms ++ [(fs, n)]) sv'.

(** ** The spec *)
Section Spec.
  Context (fs : fsys).
  Definition dirs_of (dirs : list str) : list fpath := map (fun p => match fs_canon fs p with inl q => q | inr _ => [] end) dirs.
  (** [added]: the files when [root] has got a text; files that are new are read from the disk, all others stay as they are *)
  Definition added (incl : list fpath) (root : fpath) (text : str) (ft : file_type) (T T1 : table) : Prop :=
    NoDup (keys T1)
    /\ (forall k, In k (keys T1) <-> In k (keys T) \/ loaded fs incl root text (keys T) k)
    /\ forall k v, fget k T1 = Some v ->
         (k = root /\ stored fs incl root (keys T) root text ft v)
         \/ (k <> root /\ fget k T = Some v)
         \/ (k <> root /\ ~ In k (keys T) /\ exists t, read_to_string fs k = inl t /\ stored fs incl root (keys T) k t (file_type_of_path k) v).
  (** what is published: for each file, in any order, what is known of it *)
  Definition known (T : table) (k : fpath) : list lsp_diag :=
    match fs_canon fs k with
    | inl q => match fget q T with Some v => map shown (pf_pdiags v ++ pf_adiags v) | None => [] end
    | inr _ => []
    end.
  Definition announced (T : table) (pubs : list publication) : Prop :=
    exists ks, Permutation ks (keys T) /\ pubs = map (fun k => (FileUri k, known T k)) ks.
  Inductive edited (incl : list fpath) (p : fpath) (text : str) (T T' : table) : list publication -> Prop :=
  | edit_by root T1 order pubs : fs_canon fs p = inl root -> added incl root text (file_type_of_path p) T T1 -> possible fs T1 order ->
      walk fs incl default_severities order [] T1 T' -> announced T' pubs -> edited incl p text T T' pubs.
  Inductive reply : note -> list fpath -> table -> list fpath -> table -> list publication -> Prop :=
  | rp_initialize dirs incl T : reply (NInitialize dirs) incl T (dirs_of dirs) T []
  | rp_configure dirs incl T pubs : announced T pubs -> reply (NConfigure dirs) incl T (dirs_of dirs) T pubs
  | rp_open p text incl T T' pubs : edited incl p text T T' pubs -> reply (NOpen (FileUri p) text) incl T incl T' pubs
  | rp_change p text more incl T T' pubs : edited incl p text T T' pubs -> reply (NChange (FileUri p) (text :: more)) incl T incl T' pubs
  | rp_close p q incl T : fs_canon fs p = inl q ->
      reply (NClose (FileUri p)) incl T incl (filter (fun kv => if str_eq_dec q (fst kv) then false else true) T) []
  | rp_close_unknown p e incl T : fs_canon fs p = inr e -> reply (NClose (FileUri p)) incl T incl T []
  | rp_open_other s text incl T : reply (NOpen (OtherUri s) text) incl T incl T []
  | rp_change_other s ts incl T : reply (NChange (OtherUri s) ts) incl T incl T []
  | rp_close_other s incl T : reply (NClose (OtherUri s)) incl T incl T [].
End Spec.
Inductive session_of : list (fsys * note) -> list fpath -> table -> list publication -> Prop :=
| so_start : session_of [] [] [] []
| so_next ms fs n incl T pubs incl' T' more : session_of ms incl T pubs -> reply fs n incl T incl' T' more ->
    session_of (ms ++ [(fs, n)]) incl' T' (pubs ++ more).

(** ** From the server to the spec *)
Lemma load_added fs incl root text ft T T1 : load_inv fs incl root text ft T T1 -> added fs incl root text ft T T1.
Proof.
  intros L. split; [apply L|]. split; [apply L|]. intros k v Hk. destruct (str_eq_dec k root) as [->|Hne].
  - left. split; [reflexivity|]. destruct (li_root _ _ _ _ _ _ _ L) as (w & W1 & W2). assert (w = v) as -> by congruence. exact W2.
  - right. destruct (in_dec str_eq_dec k (keys T)) as [Hin|Hin].
    + left. split; [exact Hne|]. rewrite <- (li_frame _ _ _ _ _ _ _ L k Hin Hne). exact Hk.
    + right. split; [exact Hne|]. split; [exact Hin|]. pose proof (m_get_key _ _ _ _ Hk) as Hl. apply (li_keys _ _ _ _ _ _ _ L) in Hl. destruct Hl as [Hl|Hl]; [contradiction|].
      destruct (li_new _ _ _ _ _ _ _ L k Hl Hne) as (_ & t & w & R & W1 & W2). assert (w = v) as -> by congruence. exists t. auto.
Qed.
Lemma known_diags fs T incl sev k : known fs T k = map shown (get_diagnostics fs (mkProject T incl sev) k).
Proof. unfold known, get_diagnostics, get_file. cbn [pj_files]. destruct (fs_canon fs k) as [q|]; [|reflexivity]. destruct (m_get str_eq_dec q T); reflexivity. Qed.
Lemma publish_announced ok fs sv sv' : shuffle ok -> server_inv (sv_project sv) -> publish ok fs sv = Done sv' ->
  exists more, announced fs (pj_files (sv_project sv)) more /\ sv' = mkServer (sv_project sv) (sv_sent sv ++ more).
Proof.
  intros Hk I E. unfold publish in E. rewrite publish_all_spec in E.
  - cbn [obind] in E. injection E as <-. eexists. split; [|reflexivity]. exists (ok (m_keys (pj_files (sv_project sv)))). split; [apply Hk|].
    apply map_ext. intros k. f_equal. symmetry. destruct (sv_project sv) as [f i s]. exact (known_diags fs f i s k).
  - intros k H. apply (si_absolute _ I). eapply Permutation_in; [apply Hk|exact H].
Qed.
Lemma open_edited fuel o ok fs p text sv sv' : disk fs fuel -> order_ok o -> shuffle ok -> valid_utf8 text = true -> server_inv (sv_project sv) ->
  pj_sev (sv_project sv) = default_severities -> did_open fuel o ok fs (FileUri p) text sv = Done sv' ->
  exists more, edited fs (pj_incl (sv_project sv)) p text (pj_files (sv_project sv)) (pj_files (sv_project sv')) more
    /\ sv_sent sv' = sv_sent sv ++ more /\ pj_incl (sv_project sv') = pj_incl (sv_project sv) /\ pj_sev (sv_project sv') = default_severities
    /\ server_inv (sv_project sv').
Proof.
  intros [Ha (l & Hf & Hl)] Ho Hk Hv I Es E. unfold did_open in E. cbn [to_file_path] in E.
  destruct (add_file_with_text fuel o fs p text (file_type_of_path p) (sv_project sv)) as [pj| |] eqn:Ea; cbn [obind] in E; try discriminate.
  pose proof (add_server_inv _ _ _ _ _ _ _ _ _ Ha Hf Hl Ho Hv I Ea) as I'. pose proof (reached_inv _ (si_reached _ I)) as Pi.
  apply publish_announced in E; [|exact Hk|exact I']. cbn [sv_project sv_sent] in E. destruct E as (more & An & ->). exists more. cbn [sv_project sv_sent].
  destruct (fs_canon fs p) as [root|e] eqn:Ec; [|unfold add_file_with_text in Ea; rewrite Ec in Ea; discriminate].
  destruct (add_spec _ _ _ _ _ _ _ (file_type_of_path p) _ Hf Hl Ho Ec Hv Pi) as (_ & _ & [[_ X]|(_ & order0 & pj2 & X & _ & _ & _ & Ei & Es' & _)]); [congruence|].
  assert (pj2 = pj) as -> by congruence. split; [|split; [reflexivity|split; [exact Ei|split; [congruence|exact I']]]].
  unfold add_file_with_text in Ea. rewrite Ec in Ea.
  destruct (load_inv_holds fs l fuel (pj_incl (sv_project sv)) root text (file_type_of_path p) (pj_files (sv_project sv)) Hf Hv Hl (pi_nodup _ Pi)) as (files & Ep & L).
  rewrite Ep in Ea. cbn [obind] in Ea. destruct (compute_key_order o fs files) as [order| |] eqn:Ek; cbn [obind] in Ea; try discriminate Ea.
  apply edit_by with (root := root) (T1 := files) (order := order); [exact Ec|exact (load_added _ _ _ _ _ _ _ L)| | |exact An].
  - exists (o_files o files), (o_map o (includer_map fs (o_files o files))). split; [apply Ho|]. split; [apply Ho|]. exact Ek.
  - pose proof (load_keeps fs _ root text _ (sv_project sv) files Hv Pi L) as Iq.
    apply (keys_walk fs (pj_incl (sv_project sv)) default_severities (o_an o) (proj2 (proj2 Ho)) order analysis_new (set_files files (sv_project sv)) [] pj);
      [apply Iq|reflexivity|exact Es|reflexivity|exact Ea].
Qed.

(** ** From the spec to the server *)
Lemma keys_alike T U : alike_table T U -> forall k, In k (keys T) <-> In k (keys U).
Proof.
  intros H k. specialize (H k). split; intros Hk; apply (m_get_some_key str_eq_dec) in Hk; destruct Hk as [v Hv]; rewrite Hv in H.
  - destruct (fget k U) as [w|] eqn:E; [exact (m_get_key _ _ _ _ E)|contradiction].
  - destruct (fget k T) as [w|] eqn:E; [exact (m_get_key _ _ _ _ E)|contradiction].
Qed.
Lemma loaded_ext fs incl root text K K' : (forall k, In k K <-> In k K') -> forall k, loaded fs incl root text K k -> loaded fs incl root text K' k.
Proof.
  intros H. induction 1 as [|p q _ IH Hi Hn Hr]; [constructor|]. eapply ld_include; [exact IH|exact Hi|rewrite <- H; exact Hn|exact Hr].
Qed.
Lemma element_ext fs root K K' : (forall k, In k K <-> In k K') -> forall p, element_diags fs root K p = element_diags fs root K' p.
Proof.
  intros H [[t|t|x l|i|t r|t r]|n|r|s]; cbn [element_diags]; try reflexivity. unfold include_diags. destruct (include_path fs i) as [q|]; [|reflexivity].
  assert (X : In q (root :: K) <-> In q (root :: K')) by (cbn [In]; rewrite H; reflexivity).
  destruct (in_dec str_eq_dec q (root :: K)) as [A|A], (in_dec str_eq_dec q (root :: K')) as [B|B]; try reflexivity; exfalso; [apply B, X, A|apply A, X, B].
Qed.
Lemma stored_fun fs incl root K K' k t ft v w : (forall x, In x K <-> In x K') -> stored fs incl root K k t ft v -> stored fs incl root K' k t ft w -> v = w.
Proof.
  intros H (A1 & A2 & A3 & A4 & A5) (B1 & B2 & B3 & B4 & B5). destruct v as [a b c d e f], w as [a' b' c' d' e' f']. cbn in *. subst.
  destruct A5 as [(g & s & A5 & -> & ->)|(g & s & A5 & -> & ->)], B5 as [(g' & s' & B5 & -> & ->)|(g' & s' & B5 & -> & ->)]; rewrite A5 in B5; try discriminate B5;
    injection B5 as <- <-; [|reflexivity]. f_equal. f_equal. apply flat_map_ext. apply element_ext, H.
Qed.
Lemma stored_alike fs incl root K k t ft v : stored fs incl root K k t ft v -> alike_file v v.
Proof. intros (_ & _ & H & _). split; [repeat split|]. split; [reflexivity|]. rewrite H. exact I. Qed.
Lemma added_alike fs incl root text ft T T1 F F1 : added fs incl root text ft T T1 -> added fs incl root text ft F F1 -> alike_table T F -> alike_table T1 F1.
Proof.
  intros (_ & K1 & E1) (_ & K2 & E2) Ha. pose proof (keys_alike T F Ha) as HK.
  assert (HK' : forall k, In k (keys T1) <-> In k (keys F1)).
  { intros k. rewrite K1, K2, HK. split; (intros [H|H]; [auto|right]); eapply loaded_ext; try exact H; intros x; [apply HK|symmetry; apply HK]. }
  intros k. destruct (fget k T1) as [v|] eqn:Ev.
  - pose proof (proj1 (HK' k) (m_get_key _ _ _ _ Ev)) as Hk. apply (m_get_some_key str_eq_dec) in Hk. destruct Hk as [w Hw]. rewrite Hw.
    destruct (E1 k v Ev) as [(-> & S1)|[(N1 & G1)|(N1 & O1 & t & R1 & S1)]], (E2 _ w Hw) as [(X & S2)|[(N2 & G2)|(N2 & O2 & t2 & R2 & S2)]]; try contradiction.
    + rewrite <- (stored_fun _ _ _ _ _ _ _ _ _ _ HK S1 S2). eapply stored_alike, S1.
    + specialize (Ha k). rewrite G1, G2 in Ha. exact Ha.
    + exfalso. apply O2, HK. exact (m_get_key _ _ _ _ G1).
    + exfalso. apply O1, HK. exact (m_get_key _ _ _ _ G2).
    + assert (t2 = t) as -> by congruence. rewrite <- (stored_fun _ _ _ _ _ _ _ _ _ _ HK S1 S2). eapply stored_alike, S1.
  - destruct (fget k F1) as [w|] eqn:Ew; [|exact I]. apply m_get_key, HK', (m_get_some_key str_eq_dec) in Ew. destruct Ew as [v Ev']. congruence.
Qed.
(** a table with the entries of another one *)
Definition moved (F : table) (l : table) : table := map (fun kv => (fst kv, match fget (fst kv) F with Some w => w | None => snd kv end)) l.
Lemma moved_keys F l : keys (moved F l) = keys l.
Proof. unfold moved, m_keys. rewrite map_map. reflexivity. Qed.
Lemma moved_perm T F l : NoDup (keys T) -> NoDup (keys F) -> alike_table T F -> Permutation l T -> Permutation F (moved F l).
Proof.
  intros NT NF Ha P. assert (Nl : NoDup (keys l)) by (eapply Permutation_NoDup; [apply Permutation_sym, (Permutation_map fst P)|exact NT]).
  assert (Nm : NoDup (map fst (moved F l))) by (change (NoDup (keys (moved F l))); rewrite moved_keys; exact Nl).
  apply NoDup_Permutation; [eapply NoDup_map_inv; exact NF|exact (NoDup_map_inv _ _ Nm)|]. intros [k w]. split.
  - intros Hi. apply (m_in_get str_eq_dec) in Hi; [|exact NF]. pose proof (Ha k) as Hk. rewrite Hi in Hk. destruct (fget k T) as [v|] eqn:Ev; [|contradiction].
    apply (m_get_in str_eq_dec) in Ev. apply (Permutation_in _ (Permutation_sym P)) in Ev. unfold moved. apply in_map_iff. exists (k, v). cbn [fst snd]. rewrite Hi. auto.
  - intros Hi. unfold moved in Hi. apply in_map_iff in Hi. destruct Hi as ([k' v] & E & Hi). cbn [fst snd] in E.
    apply (Permutation_in _ P), (m_in_get str_eq_dec) in Hi; [|exact NT]. specialize (Ha k'). rewrite Hi in Ha. destruct (fget k' F) as [w'|] eqn:Ew; [|contradiction].
    injection E as <- <-. apply (m_get_in str_eq_dec). exact Ew.
Qed.
Lemma moved_includers fs T F l : NoDup (keys T) -> alike_table T F -> (forall x, In x l -> In x T) -> includer_map fs (moved F l) = includer_map fs l.
Proof.
  intros NT Ha. unfold includer_map. generalize (@nil (fpath * list fpath)). induction l as [|[k v] l IH]; intros m H; [reflexivity|]. cbn [moved map fold_left fst snd].
  pose proof (H _ (or_introl eq_refl)) as Hi. apply (m_in_get str_eq_dec) in Hi; [|exact NT]. pose proof (Ha k) as Hk. rewrite Hi in Hk.
  destruct (fget k F) as [w|]; [|contradiction]. destruct Hk as ((_ & Hk & _) & _). rewrite Hk. apply IH. intros x Hx. apply H. right. exact Hx.
Qed.
Lemma known_alike fs T U k : alike_table T U -> known fs T k = known fs U k.
Proof.
  intros H. unfold known. destruct (fs_canon fs k) as [q|]; [|reflexivity]. specialize (H q). destruct (fget q T) as [v|], (fget q U) as [w|]; try contradiction; [|reflexivity].
  f_equal. apply alike_diags, H.
Qed.
Lemma announced_alike fs T U pubs : NoDup (keys T) -> NoDup (keys U) -> alike_table T U -> announced fs T pubs -> announced fs U pubs.
Proof.
  intros NT NU H (ks & P & ->). exists ks. split.
  - eapply Permutation_trans; [exact P|]. apply NoDup_Permutation; [exact NT|exact NU|]. exact (keys_alike T U H).
  - apply map_ext. intros k. f_equal. exact (known_alike fs T U k H).
Qed.
Definition order_keys (ks l : list fpath) : list fpath := map fst (sort_by str_eq_dec ks (map (fun k => (k, tt)) l)).
Lemma order_keys_ok ks : shuffle (order_keys ks).
Proof.
  intros l. unfold order_keys. eapply Permutation_trans; [apply Permutation_map, sort_perm|]. rewrite map_map. cbn [fst]. rewrite map_id. apply Permutation_refl.
Qed.
Lemma order_keys_to ks l : NoDup ks -> Permutation l ks -> order_keys ks l = ks.
Proof.
  intros N P. unfold order_keys. set (tag := map (fun k : fpath => (k, tt))).
  assert (E : forall x, map fst (tag x) = x) by (intros x; unfold tag; rewrite map_map; cbn [fst]; apply map_id).
  assert (X : sort_by str_eq_dec (map fst (tag ks)) (tag l) = tag ks).
  { apply sort_to; [rewrite E; exact N|apply Permutation_map; exact P]. }
  rewrite E in X. etransitivity; [exact (f_equal (map fst) X)|]. apply E.
Qed.
Lemma announced_publish fs sv pubs : server_inv (sv_project sv) -> announced fs (pj_files (sv_project sv)) pubs ->
  exists ok, shuffle ok /\ publish ok fs sv = Done (mkServer (sv_project sv) (sv_sent sv ++ pubs)).
Proof.
  intros I (ks & P & ->). pose proof (pi_nodup _ (reached_inv _ (si_reached _ I))) as N.
  assert (Nk : NoDup ks) by (eapply Permutation_NoDup; [apply Permutation_sym, P|exact N]).
  exists (order_keys ks). split; [apply order_keys_ok|]. unfold publish. rewrite (order_keys_to ks _ Nk (Permutation_sym P)).
  rewrite publish_all_spec.
  - cbn [obind]. f_equal. f_equal. f_equal. apply map_ext. intros k. f_equal. symmetry. destruct (sv_project sv) as [f i s]. exact (known_diags fs f i s k).
  - intros k H. apply (si_absolute _ I). eapply Permutation_in; [exact P|exact H].
Qed.
Lemma edited_open fuel fs p text T T' incl pubs sv : disk fs fuel -> valid_utf8 text = true -> server_inv (sv_project sv) ->
  pj_sev (sv_project sv) = default_severities -> pj_incl (sv_project sv) = incl -> NoDup (keys T) -> alike_table T (pj_files (sv_project sv)) ->
  edited fs incl p text T T' pubs ->
  exists o ok pj', order_ok o /\ shuffle ok /\ did_open fuel o ok fs (FileUri p) text sv = Done (mkServer pj' (sv_sent sv ++ pubs))
    /\ alike_table T' (pj_files pj') /\ NoDup (keys T') /\ pj_sev pj' = default_severities /\ pj_incl pj' = incl /\ server_inv pj'.
Proof.
  intros [Ha (u & Hf & Hl)] Hv I Es Ei NT At H. destruct H as [root T1 order pubs Ec Ad (l & m & P1 & P2 & Eo) W An].
  pose proof (reached_inv _ (si_reached _ I)) as Pi.
  destruct (load_inv_holds fs u fuel incl root text (file_type_of_path p) (pj_files (sv_project sv)) Hf Hv Hl (pi_nodup _ Pi)) as (files & Ep & L).
  pose proof (added_alike _ _ _ _ _ _ _ _ _ Ad (load_added _ _ _ _ _ _ _ L) At) as At1. pose proof (proj1 Ad) as N1. pose proof (li_nodup _ _ _ _ _ _ _ L) as N2.
  assert (Iq : project_inv (set_files files (sv_project sv))) by (eapply load_keeps; [exact Hv|exact Pi|exact L]).
  destruct (walk_keys fs incl default_severities order [] T1 T' W analysis_new (set_files files (sv_project sv)) (pi_ok _ Iq) Es At1 eq_refl) as (oa & pj' & Hoa & Ea & A' & Kk).
  cbn [pj_files set_files] in Kk.
  assert (Nf : NoDup (map fst (moved files l))).
  { change (NoDup (keys (moved files l))). rewrite moved_keys. eapply Permutation_NoDup; [apply Permutation_sym, (Permutation_map fst P1)|exact N1]. }
  assert (Nm : NoDup (map fst m)) by (eapply Permutation_NoDup; [apply Permutation_sym, (Permutation_map fst P2)|apply includer_map_spec]).
  set (oc := mkPOracle (sort_by str_eq_dec (map fst (moved files l))) (sort_by str_eq_dec (map fst m)) oa).
  assert (S1 : o_files oc files = moved files l) by exact (sort_to str_eq_dec (moved files l) files Nf (moved_perm T1 files l N1 N2 At1 P1)).
  assert (S2 : o_map oc (includer_map fs (moved files l)) = m).
  { rewrite (moved_includers fs T1 files l N1 At1) by (intros x Hx; eapply Permutation_in; eassumption). exact (sort_to str_eq_dec m _ Nm (Permutation_sym P2)). }
  assert (Ho : order_ok oc) by (split; [intros z; apply sort_perm|split; [intros z; apply sort_perm|exact Hoa]]).
  assert (Eadd : add_file_with_text fuel oc fs p text (file_type_of_path p) (sv_project sv) = Done pj').
  { unfold add_file_with_text. rewrite Ec, Ei, Ep. cbn [obind]. unfold compute_key_order. cbv zeta. rewrite S1, S2.
    assert (Eo' : order_loop m (m_keys (moved files l)) = Done order) by (rewrite moved_keys; exact Eo). rewrite Eo'. cbn [obind o_an oc]. exact Ea. }
  pose proof (add_server_inv _ _ _ _ _ _ _ _ _ Ha Hf Hl Ho Hv I Eadd) as I'.
  assert (NT' : NoDup (keys T')) by (rewrite (walk_table _ _ _ _ _ _ _ W); exact N1).
  assert (NP : NoDup (keys (pj_files pj'))) by (rewrite Kk; exact N2).
  destruct (announced_publish fs (mkServer pj' (sv_sent sv)) pubs I' (announced_alike fs _ _ _ NT' NP A' An)) as (ok & Hok & Epub).
  destruct (add_spec _ _ _ oc _ _ _ (file_type_of_path p) _ Hf Hl Ho Ec Hv Pi) as (_ & _ & [[_ X]|(_ & order0 & pj2 & X & _ & _ & _ & Ei' & Es' & _)]); [congruence|].
  assert (pj2 = pj') as -> by congruence.
  exists oc, ok, pj'. split; [exact Ho|]. split; [exact Hok|]. split; [|split; [exact A'|split; [exact NT'|split; [congruence|split; [congruence|exact I']]]]].
  unfold did_open. cbn [to_file_path]. rewrite Eadd. cbn [obind]. exact Epub.
Qed.
Lemma remove_alike q T U : alike_table T U -> alike_table (filter (fun kv => if str_eq_dec q (fst kv) then false else true) T) (m_remove str_eq_dec q U).
Proof.
  intros H k. change (filter _ T) with (m_remove str_eq_dec q T). destruct (str_eq_dec k q) as [->|Hne].
  - rewrite !m_get_remove_eq. exact I.
  - rewrite !m_get_remove_neq by exact Hne. apply H.
Qed.
