(** What a project or server does with a text it was given: C41, C46, C53, C69 at the interface; C72 to C74 *)
From Verif Require Import Parser Cli Config LexSpec ParserBase ProjectSpec ProjectProofs2 ProjectHistory ServerProofs PropsProject PropsProject2 PropsProject3
  PropsServer PropsSymbols PropsSearch PropsHistory Tests.
From Coq Require Import Permutation.

(** ** C41 at the interface *)
(** Whatever name a client uses for a file of an addition, it gets the diagnostics of the parser. Missing: the
    diagnostics before an unrecoverable error, see C41_refuted. *)
Theorem C41_reported_partial : forall fs u fuel o name root text ft pj pj', finite_fs fs u -> (length u < fuel)%nat -> order_ok o ->
  fs_canon fs name = inl root -> valid_utf8 text = true -> reached pj -> add_file_with_text fuel o fs name text ft pj = Done pj' ->
  forall k t x, loaded fs (pj_incl pj) root text (keys (pj_files pj)) k -> text_of fs root text k = Some t -> fs_canon fs x = inl k ->
  match parse_text (include_dirs (pj_incl pj) k) t k with
  | ROk f s => forall d, In d (ps_diags s) -> In d (get_diagnostics fs pj' x)
  | RErr d s => In d (get_diagnostics fs pj' x)
  | _ => False
  end.
Proof.
  intros fs u fuel o name root text ft pj pj' Hf Hl Ho Hc Hv Hp E k t x Hk Ht Hx.
  destruct (C41_kept_partial fs u fuel o name root text ft pj pj' Hf Hl Ho Hc Hv Hp E k t Hk Ht) as (v & V1 & _ & V2).
  unfold get_diagnostics, get_file. rewrite Hx. change (m_get str_eq_dec k (pj_files pj')) with (fget k (pj_files pj')). rewrite V1. exact V2.
Qed.
Print Assumptions C41_reported_partial.

(** ** The added file *)
Lemma add_root fs u fuel o name root text ft pj pj' : finite_fs fs u -> (length u < fuel)%nat -> order_ok o ->
  fs_canon fs name = inl root -> valid_utf8 text = true -> reached pj -> add_file_with_text fuel o fs name text ft pj = Done pj' ->
  exists v, fget root (pj_files pj') = Some v /\ pf_text v = text /\ pf_type v = ft
    /\ pf_file v = match parse_text (include_dirs (pj_incl pj) root) text root with ROk f _ => Some f | _ => None end.
Proof.
  intros Hf Hl Ho Hc Hv Hp E.
  destruct (add_done _ _ _ _ _ _ _ _ _ _ Hf Hl Ho Hc Hv Hp E) as (files' & order & L & _ & _ & _ & _ & _ & _ & _ & S).
  destruct (li_root _ _ _ _ _ _ _ L) as (w & A & (T1 & T2 & _ & _ & B)). specialize (S root). rewrite A in S.
  destruct (fget root (pj_files pj')) as [v|]; [|contradiction]. destruct S as (_ & S1 & S2 & S3). exists v. split; [reflexivity|].
  split; [congruence|]. split; [congruence|]. rewrite S1. destruct B as [(f & s & -> & -> & _)|(d & s & -> & -> & _)]; reflexivity.
Qed.

(** A file read from disk is of the type of its canonical name, whatever name it was added by *)
Theorem C53_added : forall fs u fuel o name root pj pj', finite_fs fs u -> (length u < fuel)%nat -> order_ok o -> canon_stable fs ->
  reached pj -> add_file fuel o fs name pj = Done (inr pj') -> fs_canon fs name = inl root ->
  exists v, get_file fs pj' name = Some v /\ pf_type v = file_type_of_path root /\ read_to_string fs root = inl (pf_text v).
Proof.
  intros fs u fuel o name root pj pj' Hf Hl Ho Hst Hp E Hc. unfold add_file in E. rewrite Hc in E.
  destruct (read_to_string fs root) as [text|e] eqn:Er; [|discriminate].
  destruct (add_file_with_text fuel o fs root text (file_type_of_path root) pj) as [pj2| |] eqn:Ea; cbn [obind] in E; try discriminate.
  injection E as <-.
  destruct (add_root fs u fuel o root root text _ pj pj2 Hf Hl Ho (Hst _ _ Hc) (proj1 (read_valid _ _ _ Er)) Hp Ea) as (v & A & B & C & _).
  exists v. unfold get_file. rewrite Hc. split; [exact A|]. split; [exact C|]. rewrite B. reflexivity.
Qed.
Print Assumptions C53_added.

(** The outline answered for a document is the outline of the text last sent *)
Theorem C46_served : forall fuel o ok fs p root text sv sv', served sv -> disk fs fuel -> order_ok o -> shuffle ok -> valid_utf8 text = true ->
  fs_canon fs p = inl root -> did_open fuel o ok fs (FileUri p) text sv = Done sv' ->
  document_symbol fs (FileUri p) sv'
  = match parse_text (include_dirs (pj_incl (sv_project sv)) root) text root with ROk f _ => Some (file_symbols f) | _ => None end.
Proof.
  intros fuel o ok fs p root text sv sv' Hs [Ha (l & Hf & Hl)] Ho Hk Hv Hc E. unfold did_open in E. cbn [to_file_path] in E.
  destruct (add_file_with_text fuel o fs p text (file_type_of_path p) (sv_project sv)) as [pj| |] eqn:Ea; cbn [obind] in E; try discriminate.
  apply publish_project in E. cbn [sv_project] in E.
  destruct (add_root fs l fuel o p root text _ _ pj Hf Hl Ho Hc Hv (si_reached _ (served_inv _ Hs)) Ea) as (v & A & _ & _ & D).
  unfold document_symbol. cbn [to_file_path]. unfold get_root, get_file. rewrite E, Hc.
  change (m_get str_eq_dec root (pj_files pj)) with (fget root (pj_files pj)). rewrite A, D. destruct (parse_text _ _ _); reflexivity.
Qed.
Print Assumptions C46_served.
Example C46_served_case : option_map (map sy_name) (document_symbol (mem_fs ex47) (FileUri (bs "/a.dts")) sv47) = Some [bs "include /b.dtsi"; bs "/"]
  /\ did_open 5 id_oracle (fun l => l) (mem_fs ex47) (FileUri (bs "/a.dts")) text47 server_new = Done sv47.
Proof. split; [vm_compute; reflexivity|apply sv47_done]. Qed.
Example C53_added_case : exists pj v, add_file 5 id_oracle (mem_fs ex47) (bs "/b.dtsi") project_new = Done (inr pj)
  /\ get_file (mem_fs ex47) pj (bs "/b.dtsi") = Some v /\ pf_type v = DtSourceInclude.
Proof. do 2 eexists. split; [vm_compute; reflexivity|]. split; vm_compute; reflexivity. Qed.

(** ** C69: where the directories come from *)
Definition directories (fs : fsys) (given : list str) (dirs : list fpath) : Prop := Forall2 (fun d c => fs_canon fs d = inl c) given dirs.
Theorem C69_cli : forall dbg fuel o ofiles fs u includes file root text status out,
  finite_fs fs u -> (length u < fuel)%nat -> order_ok o -> canon_stable fs ->
  (forall d, In d includes -> exists c, fs_canon fs d = inl c) -> fs_canon fs file = inl root -> read_to_string fs root = inl text ->
  cli_main dbg fuel o ofiles fs includes file = Done (status, out) ->
  exists dirs pj' errs out', directories fs includes dirs /\ print_files dbg (ofiles (pj_files pj')) = Done (errs, out')
    /\ (status, out) = (if errs then (0, out' ++ ok_message) else (1, out'))
    /\ forall p d v f i, loaded fs dirs root text [] p -> directory p d ->
       fget p (pj_files pj') = Some v -> pf_file v = Some f -> In (PDirective (AInclude i)) (fl_elements f) ->
       forall q, include_path fs i = inl q <-> first_hit fs (wt_item (in_file_name i)) (d :: dirs) q.
Proof.
  intros dbg fuel o ofiles fs u includes file root text status out Hf Hl Ho Hst Hd Hc Hr E. unfold cli_main in E.
  destruct (add_file fuel o fs file (set_include_paths fs includes project_new)) as [[e|pj']| |] eqn:Ea; cbn [obind] in E; try discriminate;
    unfold add_file in Ea; rewrite Hc, Hr in Ea.
  - destruct (add_file_with_text _ _ _ _ _ _ _); discriminate.
  - destruct (add_file_with_text fuel o fs root text (file_type_of_path root) (set_include_paths fs includes project_new)) as [pj2| |] eqn:Eb; cbn [obind] in Ea; try discriminate.
    injection Ea as <-. destruct (print_files dbg (ofiles (pj_files pj2))) as [[errs out']| |] eqn:Ep; cbn [obind] in E; try discriminate.
    exists (pj_incl (set_include_paths fs includes project_new)), pj2, errs, out'. split; [apply C69_directories, Hd|]. split; [exact Ep|].
    split; [destruct errs; injection E as <- <-; reflexivity|].
    exact (C69_search fs u fuel o root root text _ _ pj2 Hf Hl Ho (Hst _ _ Hc) (proj1 (read_valid _ _ _ Hr)) (re_dirs _ _ _ re_new) Eb).
Qed.
Print Assumptions C69_cli.
(** the include is found in the directory given on the command line, without it it is missing *)
Definition ex69c : list (fpath * str) := [(bs "/i", [255]); (bs "/d/a.dts", bs "/dts-v1/; /include/ ""b.dtsi"""); (bs "/i/b.dtsi", bs "")].
Example C69_cli_case : option_map fst (match cli_main true 5 id_oracle (fun l => l) (mem_fs ex69c) [bs "/i"] (bs "/d/a.dts") with Done r => Some r | _ => None end) = Some 1
  /\ option_map fst (match cli_main true 5 id_oracle (fun l => l) (mem_fs ex69c) [] (bs "/d/a.dts") with Done r => Some r | _ => None end) = Some 0.
Proof. split; vm_compute; reflexivity. Qed.

(** ** C72: the configuration *)
(** the settings give the directories [ds]: an object whose member [includes] is an array of strings *)
Definition settings_give (v : json) (ds : list str) : Prop :=
  exists m, v = JObject m /\ m_get str_eq_dec (bs "includes") m = Some (JArray (map JString ds)).
(** the short form: an array that holds the array of strings *)
Definition short_settings_give (v : json) (ds : list str) : Prop := v = JArray [JArray (map JString ds)].

Lemma json_strings_iff l ds : json_strings l = Some ds <-> l = map JString ds.
Proof.
  revert ds. induction l as [|x l IH]; intros ds; cbn [json_strings].
  - split; [intros H; injection H as <-; reflexivity|destruct ds; [reflexivity|discriminate]].
  - destruct ds as [|d ds]; cbn [map].
    + destruct x; try (split; discriminate). destruct (json_strings l); split; discriminate.
    + destruct x as [| | |s| |]; try (split; discriminate). specialize (IH ds). destruct (json_strings l) as [r|]; cbn [option_map].
      * split; intros H; injection H; [intros -> ->; f_equal; apply IH; reflexivity|]. intros H2 ->. apply IH in H2. congruence.
      * split; [discriminate|]. intros H. injection H as -> H. apply IH in H. discriminate.
Qed.
Lemma vec_string_iff v ds : vec_string v = Some ds <-> v = JArray (map JString ds).
Proof.
  destruct v as [| | | |l|]; cbn [vec_string]; try (split; discriminate). rewrite json_strings_iff. split; [intros ->; reflexivity|]. intros H. injection H. auto.
Qed.
Lemma parse_config_iff v ds : parse_config v = Some ds <-> settings_give v ds \/ short_settings_give v ds.
Proof.
  unfold settings_give, short_settings_give. destruct v as [| | | |l|m]; cbn [parse_config].
  1-4: split; [discriminate|intros [(m & H & _)|H]; discriminate].
  - destruct l as [|x [|y l]].
    + split; [discriminate|intros [(m & H & _)|H]; discriminate].
    + rewrite vec_string_iff. split; [intros ->; right; reflexivity|]. intros [(m & H & _)|H]; [discriminate|]. injection H. auto.
    + split; [discriminate|intros [(m & H & _)|H]; discriminate].
  - destruct (m_get str_eq_dec (bs "includes") m) as [x|] eqn:E.
    + rewrite vec_string_iff. split; [intros ->; left; exists m; auto|]. intros [(m' & H & H2)|H]; [|discriminate]. injection H as <-. congruence.
    + split; [discriminate|]. intros [(m' & H & H2)|H]; [|discriminate]. injection H as <-. congruence.
Qed.

(** Settings that give directories are obeyed, at the start and later *)
Theorem C72_directories : forall ok fs v ds sv, settings_give v ds \/ short_settings_give v ds ->
  (forall d, In d ds -> exists c, fs_canon fs d = inl c) ->
  directories fs ds (pj_incl (sv_project (on_initialize fs (Some v) sv)))
  /\ forall sv', on_configuration ok fs v sv = Done sv' -> directories fs ds (pj_incl (sv_project sv')).
Proof.
  intros ok fs v ds sv Hv Hd. apply parse_config_iff in Hv. unfold on_initialize, on_configuration, config_includes. rewrite Hv. split.
  - apply C69_directories, Hd.
  - intros sv' E. apply publish_project in E. rewrite E. apply C69_directories, Hd.
Qed.
Print Assumptions C72_directories.
(** All other settings, and the lack of settings, leave the project without include directories; nothing fails *)
Theorem C72_malformed : forall ok fs v sv, (forall ds, ~ settings_give v ds /\ ~ short_settings_give v ds) ->
  pj_incl (sv_project (on_initialize fs (Some v) sv)) = [] /\ pj_incl (sv_project (on_initialize fs None sv)) = []
  /\ forall sv', on_configuration ok fs v sv = Done sv' -> pj_incl (sv_project sv') = [].
Proof.
  intros ok fs v sv Hv. assert (E : parse_config v = None).
  { destruct (parse_config v) as [ds|] eqn:E; [|reflexivity]. apply parse_config_iff in E. destruct (Hv ds). tauto. }
  unfold on_initialize, on_configuration, config_includes. rewrite E. split; [reflexivity|]. split; [reflexivity|].
  intros sv' X. apply publish_project in X. rewrite X. reflexivity.
Qed.
Print Assumptions C72_malformed.
(** one directory that is not a string drops all of them *)
Example C72_case : settings_give (JObject [(bs "trace", JBool true); (bs "includes", JArray [JString (bs "/i")])]) [bs "/i"]
  /\ (forall ds, ~ settings_give (JObject [(bs "includes", JArray [JString (bs "/i"); JNull])]) ds
             /\ ~ short_settings_give (JObject [(bs "includes", JArray [JString (bs "/i"); JNull])]) ds)
  /\ pj_incl (sv_project (on_initialize (mem_fs [(bs "/i", [255])]) (Some (JObject [(bs "includes", JArray [JString (bs "/i")])])) server_new)) = [bs "/i"].
Proof.
  split; [eexists; split; [reflexivity|]; vm_compute; reflexivity|]. split; [|vm_compute; reflexivity].
  intros ds. split; [|discriminate]. intros (m & H & H2). injection H as <-.
  assert (E : Some (JArray [JString (bs "/i"); JNull]) = Some (JArray (map JString ds))) by (rewrite <- H2; vm_compute; reflexivity).
  injection E as E. destruct ds as [|a [|b ds]]; discriminate.
Qed.

(** ** C73: a new configuration and the documents that are open *)
(** exactly: a change of the configuration leaves the texts, trees and diagnostics of all files as they are, and
    shows the diagnostics of all files again *)
Theorem C73_exact : forall ok fs v sv, served sv -> shuffle ok -> exists sv', on_configuration ok fs v sv = Done sv'
  /\ pj_files (sv_project sv') = pj_files (sv_project sv) /\ up_to_date fs sv'
  /\ (up_to_date fs sv -> forall u, client_view (sv_sent sv') u = client_view (sv_sent sv) u).
Proof.
  intros ok fs v sv Hs Hk. unfold on_configuration, did_change_configuration.
  destruct (publish_spec ok fs (mkServer (set_include_paths fs (config_includes v) (sv_project sv)) (sv_sent sv)) Hk) as (sv' & E & P & U & W).
  - cbn [sv_project]. apply dirs_server_inv, served_inv, Hs.
  - exists sv'. split; [exact E|]. cbn [sv_project sv_sent] in *. split; [rewrite P; reflexivity|]. split; [exact U|].
    intros U0 u. destruct u as [k|s].
    + destruct (in_dec str_eq_dec k (keys (pj_files (sv_project sv)))) as [Hin|Hn].
      * rewrite U0 by exact Hin. rewrite U; rewrite P; [reflexivity|exact Hin].
      * apply W. intros q Hq X. injection X as <-. exact (Hn Hq).
    + apply W. intros q Hq X. discriminate X.
Qed.
Print Assumptions C73_exact.

(** The claim in full is false: an include that the new directories would resolve is still reported, and sending the
    text again removes the report *)
Definition ex73 : list (fpath * str) := [(bs "/i", [255]); (bs "/d/a.dts", bs ""); (bs "/i/b.dtsi", bs "")].
Definition text73 : str := bs "/dts-v1/; /include/ ""b.dtsi""".
Definition settings73 : json := JObject [(bs "includes", JArray [JString (bs "/i")])].
Definition open73 (sv : server) : outcome server := did_open 5 id_oracle (fun l => l) (mem_fs ex73) (FileUri (bs "/d/a.dts")) text73 sv.
Definition sv73 : server := unwrap_sv (open73 server_new).
Definition sv73b : server := unwrap_sv (on_configuration (fun l => l) (mem_fs ex73) settings73 sv73).
Definition sv73c : server := unwrap_sv (open73 sv73b).
Lemma sv73_served : served sv73.
Proof.
  apply (se_open 5 id_oracle (fun l => l) (mem_fs ex73) (FileUri (bs "/d/a.dts")) text73 server_new);
    [constructor|apply mem_disk; [reflexivity|cbn; lia]|apply id_order_ok|apply id_shuffle|vm_compute; reflexivity|vm_compute; reflexivity].
Qed.
Theorem C73_refuted : exists fuel o ok fs p text v sv sv1 sv2, served sv /\ disk fs fuel /\ order_ok o /\ shuffle ok
  /\ did_open fuel o ok fs (FileUri p) text server_new = Done sv /\ on_configuration ok fs v sv = Done sv1
  /\ did_open fuel o ok fs (FileUri p) text sv1 = Done sv2
  /\ client_view (sv_sent sv1) (FileUri p) <> client_view (sv_sent sv2) (FileUri p) /\ client_view (sv_sent sv2) (FileUri p) = [].
Proof.
  exists 5%nat, id_oracle, (fun l => l), (mem_fs ex73), (bs "/d/a.dts"), text73, settings73, sv73, sv73b, sv73c.
  split; [apply sv73_served|]. split; [apply (mem_disk ex73 5); [reflexivity|cbn; lia]|]. split; [apply id_order_ok|]. split; [apply id_shuffle|].
  split; [vm_compute; reflexivity|]. split; [vm_compute; reflexivity|]. split; [vm_compute; reflexivity|].
  split; [|vm_compute; reflexivity]. vm_compute. discriminate.
Qed.
Print Assumptions C73_refuted.

(** A text sent after the change is read with the new directories. *)
Theorem C73_next_text_partial : forall fuel o ok fs v ds p root d text sv sv1 sv2 file f i, served sv -> disk fs fuel -> order_ok o -> shuffle ok ->
  settings_give v ds -> (forall d, In d ds -> exists c, fs_canon fs d = inl c) ->
  on_configuration ok fs v sv = Done sv1 -> fs_canon fs p = inl root -> directory root d -> valid_utf8 text = true ->
  did_open fuel o ok fs (FileUri p) text sv1 = Done sv2 ->
  get_file fs (sv_project sv2) p = Some file -> pf_file file = Some f -> In (PDirective (AInclude i)) (fl_elements f) ->
  exists dirs, directories fs ds dirs /\ forall q, include_path fs i = inl q <-> first_hit fs (wt_item (in_file_name i)) (d :: dirs) q.
Proof.
  intros fuel o ok fs v ds p root d text sv sv1 sv2 file f i Hs [Ha (l & Hf & Hl)] Ho Hk Hv Hd E1 Hc Hdir Ht E2 Hfile Hf' Hi.
  destruct (C72_directories ok fs v ds sv (or_introl Hv) Hd) as [_ D]. specialize (D _ E1).
  exists (pj_incl (sv_project sv1)). split; [exact D|]. unfold did_open in E2. cbn [to_file_path] in E2.
  destruct (add_file_with_text fuel o fs p text (file_type_of_path p) (sv_project sv1)) as [pj| |] eqn:Ea; cbn [obind] in E2; try discriminate.
  apply publish_project in E2. cbn [sv_project] in E2. rewrite E2 in Hfile. unfold get_file in Hfile. rewrite Hc in Hfile.
  apply (C69_search fs l fuel o p root text (file_type_of_path p) (sv_project sv1) pj Hf Hl Ho Hc Ht) with (p := root) (v := file) (f := f); try assumption.
  - apply si_reached, served_inv. eapply se_configure; [exact Hs|exact Hk|exact E1].
  - constructor.
Qed.
Print Assumptions C73_next_text_partial.
Example C73_case : on_configuration (fun l => l) (mem_fs ex73) settings73 sv73 = Done sv73b /\ open73 sv73b = Done sv73c
  /\ directory (bs "/d/a.dts") (bs "/d") /\ settings_give settings73 [bs "/i"]
  /\ exists file f i, get_file (mem_fs ex73) (sv_project sv73c) (bs "/d/a.dts") = Some file /\ pf_file file = Some f
     /\ In (PDirective (AInclude i)) (fl_elements f) /\ include_path (mem_fs ex73) i = inl (bs "/i/b.dtsi").
Proof.
  split; [vm_compute; reflexivity|]. split; [vm_compute; reflexivity|]. split.
  { apply (di_dir (bs "d") (bs "a.dts")); [discriminate|cbn; intuition discriminate|discriminate]. }
  split; [eexists; split; [reflexivity|vm_compute; reflexivity]|].
  do 3 eexists. split; [vm_compute; reflexivity|]. split; [vm_compute; reflexivity|]. split; [right; left; reflexivity|]. vm_compute. reflexivity.
Qed.

(** ** C74: what the editor shows depends on the texts only *)
(** connections with fixed disk and configuration *)
Inductive connection (fs : fsys) (dirs : list str) : server -> Prop :=
| co_start : connection fs dirs (initialize fs dirs server_new)
| co_open fuel o ok u text sv sv' : connection fs dirs sv -> disk fs fuel -> order_ok o -> shuffle ok -> valid_utf8 text = true ->
    did_open fuel o ok fs u text sv = Done sv' -> connection fs dirs sv'
| co_change fuel o ok u text texts sv sv' : connection fs dirs sv -> disk fs fuel -> order_ok o -> shuffle ok -> valid_utf8 text = true ->
    did_change fuel o ok fs u (text :: texts) sv = Done sv' -> connection fs dirs sv'
| co_close u sv : connection fs dirs sv -> connection fs dirs (did_close fs u sv).
(** the last notification opened or changed a document *)
Definition edited (fs : fsys) (dirs : list str) (sv' : server) : Prop :=
  exists fuel o ok p text sv, connection fs dirs sv /\ disk fs fuel /\ order_ok o /\ shuffle ok /\ valid_utf8 text = true
    /\ (did_open fuel o ok fs (FileUri p) text sv = Done sv' \/ exists texts, did_change fuel o ok fs (FileUri p) (text :: texts) sv = Done sv').

Lemma change_open fuel o ok fs u text texts sv : did_change fuel o ok fs u (text :: texts) sv = did_open fuel o ok fs u text sv.
Proof. unfold did_change, did_open. destruct (to_file_path u); reflexivity. Qed.
Lemma connection_session fs dirs sv : connection fs dirs sv -> session fs dirs (sv_project sv) /\ served sv.
Proof.
  assert (K : forall fuel o ok u text sv sv', session fs dirs (sv_project sv) /\ served sv -> disk fs fuel -> order_ok o -> shuffle ok -> valid_utf8 text = true ->
    did_open fuel o ok fs u text sv = Done sv' -> session fs dirs (sv_project sv') /\ served sv').
  { intros fuel o ok u text s1 s2 [H1 H2] Hd Ho Hk Hv E. split; [|eapply se_open; eassumption]. unfold did_open in E.
    destruct (to_file_path u) as [p|]; [|injection E as <-; exact H1]. destruct Hd as [_ (l & Hf & Hl)].
    destruct (add_file_with_text fuel o fs p text (file_type_of_path p) (sv_project s1)) as [pj| |] eqn:Ea; cbn [obind] in E; try discriminate.
    apply publish_project in E. rewrite E. eapply se_add; eassumption. }
  induction 1 as [|fuel o ok u text sv sv' H IH Hd Ho Hk Hv E|fuel o ok u text texts sv sv' H IH Hd Ho Hk Hv E|u sv H [I1 I2]].
  - split; [apply se_start|apply se_initialize, se_new].
  - eapply K; eassumption.
  - rewrite change_open in E. eapply K; eassumption.
  - split; [|apply se_close, I2]. unfold did_close. destruct (to_file_path u); [apply se_remove, I1|exact I1].
Qed.
Lemma edited_updated fs dirs sv : edited fs dirs sv -> updated fs dirs (sv_project sv) /\ up_to_date fs sv.
Proof.
  intros (fuel & o & ok & p & text & sv0 & H & Hd & Ho & Hk & Hv & E). destruct (connection_session _ _ _ H) as [Z S].
  assert (E' : did_open fuel o ok fs (FileUri p) text sv0 = Done sv) by (destruct E as [E|[texts E]]; [exact E|rewrite change_open in E; exact E]).
  split; [|eapply C47_open_published; eassumption]. unfold did_open in E'. cbn [to_file_path] in E'. destruct Hd as [_ (l & Hf & Hl)].
  destruct (add_file_with_text fuel o fs p text (file_type_of_path p) (sv_project sv0)) as [pj| |] eqn:Ea; cbn [obind] in E'; try discriminate.
  apply publish_project in E'. rewrite E'. exists l, fuel, o, p, text, (file_type_of_path p), (sv_project sv0). auto 10.
Qed.

(** Missing for the full claim: as in C71. *)
Theorem C74_shown_partial : forall fs dirs sv1 sv2, canon_stable fs -> edited fs dirs sv1 -> edited fs dirs sv2 ->
  same_texts (sv_project sv1) (sv_project sv2) -> two_level fs (pj_files (sv_project sv1)) -> unambiguous_files fs (sv_project sv1) ->
  (forall k v, fget k (pj_files (sv_project sv1)) = Some v -> client_view (sv_sent sv1) (FileUri k) = client_view (sv_sent sv2) (FileUri k))
  /\ (forall u c, goto_definition fs u c sv1 = goto_definition fs u c sv2 /\ hover fs u c sv1 = hover fs u c sv2)
  /\ forall u, document_symbol fs u sv1 = document_symbol fs u sv2.
Proof.
  intros fs dirs sv1 sv2 Hst E1 E2 Ht H2 Hu. destruct (edited_updated _ _ _ E1) as [U1 V1], (edited_updated _ _ _ E2) as [U2 V2].
  pose proof (C71_current_texts_partial fs dirs _ _ Hst U1 U2 Ht H2 Hu) as R.
  assert (F : forall p c, find_at_pos fs (sv_project sv1) p c = find_at_pos fs (sv_project sv2) p c).
  { intros p c. destruct (R p) as (_ & X & _). revert X. unfold find_at_pos, get_root.
    destruct (get_file fs (sv_project sv1) p) as [v|], (get_file fs (sv_project sv2) p) as [w|]; intros X; rewrite ?X; try reflexivity.
    - rewrite <- X. reflexivity. }
  split; [|split].
  - intros k v Hk. rewrite V1 by (eapply m_get_key, Hk). rewrite V2.
    + f_equal. apply R.
    + specialize (Ht k). rewrite Hk in Ht. destruct (fget k (pj_files (sv_project sv2))) as [w|] eqn:Ew; [|contradiction]. eapply m_get_key, Ew.
  - intros u c. unfold goto_definition, hover. destruct (to_file_path u) as [p|]; [|auto]. rewrite F. destruct (R p) as (_ & _ & X).
    destruct (find_at_pos fs (sv_project sv2) p c) as [[r|l|i]|]; try (split; reflexivity). destruct (X r) as [X1 X2]. rewrite X1, X2. auto.
  - intros u. unfold document_symbol. destruct (to_file_path u) as [p|]; [|reflexivity]. destruct (R p) as (_ & X & _). rewrite X. reflexivity.
Qed.
Print Assumptions C74_shown_partial.

(** the editor opens a source; another one first opens the include with a text that is corrected at the end *)
Definition open74 (p text : str) (sv : server) : outcome server := did_open 4 id_oracle (fun l => l) (mem_fs ex71) (FileUri p) text sv.
Definition sv74a : server := unwrap_sv (open74 (bs "/a.dts") text71 (initialize (mem_fs ex71) [] server_new)).
Definition sv74b0 : server :=
  unwrap_sv (open74 (bs "/a.dts") text71 (unwrap_sv (open74 (bs "/c.dtsi") (bs "/ {") (initialize (mem_fs ex71) [] server_new)))).
Definition sv74b : server := unwrap_sv (did_change 4 id_oracle (fun l => l) (mem_fs ex71) (FileUri (bs "/c.dtsi")) [text71c] sv74b0).
Example C74_case : edited (mem_fs ex71) [] sv74a /\ edited (mem_fs ex71) [] sv74b
  /\ sv_project sv74a = pj71a /\ sv_project sv74b = pj71b
  /\ client_view (sv_sent sv74b0) (FileUri (bs "/c.dtsi")) <> client_view (sv_sent sv74b) (FileUri (bs "/c.dtsi")).
Proof.
  assert (D : disk (mem_fs ex71) 4) by (apply mem_disk; [reflexivity|cbn; lia]).
  split; [|split; [|split; [|split]]].
  - exists 4%nat, id_oracle, (fun l => l), (bs "/a.dts"), text71, (initialize (mem_fs ex71) [] server_new).
    split; [apply co_start|]. split; [exact D|]. split; [apply id_order_ok|]. split; [apply id_shuffle|]. split; [vm_compute; reflexivity|].
    left. vm_compute. reflexivity.
  - exists 4%nat, id_oracle, (fun l => l), (bs "/c.dtsi"), text71c, sv74b0.
    split; [|split; [exact D|split; [apply id_order_ok|split; [apply id_shuffle|split; [vm_compute; reflexivity|right; exists []; vm_compute; reflexivity]]]]].
    apply (co_open (mem_fs ex71) [] 4 id_oracle (fun l => l) (FileUri (bs "/a.dts")) text71 (unwrap_sv (open74 (bs "/c.dtsi") (bs "/ {") (initialize (mem_fs ex71) [] server_new))));
      [|exact D|apply id_order_ok|apply id_shuffle|vm_compute; reflexivity|vm_compute; reflexivity].
    apply (co_open (mem_fs ex71) [] 4 id_oracle (fun l => l) (FileUri (bs "/c.dtsi")) (bs "/ {") (initialize (mem_fs ex71) [] server_new));
      [apply co_start|exact D|apply id_order_ok|apply id_shuffle|vm_compute; reflexivity|vm_compute; reflexivity].
  - vm_compute. reflexivity.
  - vm_compute. reflexivity.
  - vm_compute. discriminate.
Qed.
