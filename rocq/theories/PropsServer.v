(** Properties of the language server: C47 to C50, C52, C62, C64 *)
From Verif Require Import ServerProofs Server LexSpec ParserBase PropsAnalysis AnalysisProofs ProjectProofs2 ProjectHistory PropsProject Tests.
From Coq Require Import Permutation.

(** ** C47: published diagnostics *)
(** what the editor shows for a diagnostic *)
Definition shown (d : diag) : lsp_diag :=
  mkLD (dg_span d) (dg_msg d) (error_code_name (dg_kind d)) (default_severities (dg_kind d)).
(** the client shows for every file of the project the diagnostics the project has for it *)
Definition up_to_date (fs : fsys) (sv : server) : Prop :=
  forall k, In k (keys (pj_files (sv_project sv))) ->
    client_view (sv_sent sv) (FileUri k) = map shown (get_diagnostics fs (sv_project sv) k).

Lemma view_app a b u : client_view (a ++ b) u = fold_left (fun acc p => if uri_eq_dec (fst p) u then snd p else acc) b (client_view a u).
Proof. unfold client_view. apply fold_left_app. Qed.
Lemma view_same (b : list publication) u (ds : list lsp_diag) : (forall p, In p b -> fst p = u -> snd p = ds) -> forall acc,
  (exists p, In p b /\ fst p = u) \/ acc = ds -> fold_left (fun acc p => if uri_eq_dec (fst p) u then snd p else acc) b acc = ds.
Proof.
  induction b as [|p b IH]; intros H acc Hx; cbn [fold_left].
  - destruct Hx as [(p & [] & _)|Hx]; exact Hx.
  - apply IH; [intros q Hq; apply H; right; exact Hq|]. destruct (uri_eq_dec (fst p) u) as [E|E].
    + right. apply H; [left; reflexivity|exact E].
    + destruct Hx as [(q & [->|Hq] & Eq)|Hx]; [contradiction|left; exists q; split; assumption|right; exact Hx].
Qed.
Lemma view_other (b : list publication) u : (forall p, In p b -> fst p <> u) -> forall acc, fold_left (fun acc p => if uri_eq_dec (fst p) u then snd p else acc) b acc = acc.
Proof.
  induction b as [|p b IH]; intros H acc; [reflexivity|]. cbn [fold_left]. rewrite IH; [|intros q Hq; apply H; right; exact Hq].
  destruct (uri_eq_dec (fst p) u) as [E|E]; [|reflexivity]. exfalso. exact (H p (or_introl eq_refl) E).
Qed.
Lemma publish_all_spec fs pj files : (forall k, In k files -> absolute k) ->
  publish_all fs pj files = Done (map (fun k => (FileUri k, map shown (get_diagnostics fs pj k))) files).
Proof.
  induction files as [|k files IH]; intros H; [reflexivity|]. cbn [publish_all map]. rewrite (from_absolute k (H k (or_introl eq_refl))).
  rewrite IH; [reflexivity|]. intros q Hq. apply H. right. exact Hq.
Qed.
Lemma publish_spec ok fs sv : shuffle ok -> server_inv (sv_project sv) -> exists sv', publish ok fs sv = Done sv' /\ sv_project sv' = sv_project sv
  /\ up_to_date fs sv' /\ (forall u, (forall k, In k (keys (pj_files (sv_project sv))) -> u <> FileUri k) -> client_view (sv_sent sv') u = client_view (sv_sent sv) u).
Proof.
  intros Hk [_ Ha _ _]. unfold publish.
  assert (P : forall k, In k (ok (m_keys (pj_files (sv_project sv)))) <-> In k (m_keys (pj_files (sv_project sv)))).
  { intros k. split; apply Permutation_in; [|apply Permutation_sym]; apply Hk. }
  rewrite publish_all_spec; [|intros k H; apply Ha, P, H]. cbn [obind]. eexists. split; [reflexivity|]. cbn [sv_project sv_sent]. split; [reflexivity|]. split.
  - intros k Hin. cbn [sv_project sv_sent] in *. rewrite view_app. apply view_same.
    + intros p Hp E. apply in_map_iff in Hp. destruct Hp as (q & <- & _). cbn [fst snd] in *. injection E as ->. reflexivity.
    + left. eexists. split; [apply in_map, P, Hin|reflexivity].
  - intros u Hu. rewrite view_app. apply view_other. intros p Hp E. apply in_map_iff in Hp. destruct Hp as (q & <- & Hq). cbn [fst] in E. apply P in Hq.
    exact (Hu q Hq (eq_sym E)).
Qed.

Theorem C47_open_published : forall fuel o ok fs p text sv sv', served sv -> disk fs fuel -> order_ok o -> shuffle ok -> valid_utf8 text = true ->
  did_open fuel o ok fs (FileUri p) text sv = Done sv' -> up_to_date fs sv'.
Proof.
  intros fuel o ok fs p text sv sv' Hs [Ha (l & Hf & Hl)] Ho Hk Hv E. unfold did_open in E. cbn [to_file_path] in E.
  destruct (add_file_with_text fuel o fs p text (file_type_of_path p) (sv_project sv)) as [pj| |] eqn:Ea; cbn [obind] in E; try discriminate.
  destruct (publish_spec ok fs (mkServer pj (sv_sent sv)) Hk) as (sv2 & E2 & _ & U & _).
  - cbn [sv_project]. eapply add_server_inv; try eassumption. apply served_inv, Hs.
  - rewrite E in E2. injection E2 as <-. exact U.
Qed.
Print Assumptions C47_open_published.
Theorem C47_change_published : forall fuel o ok fs p texts sv sv', served sv -> disk fs fuel -> order_ok o -> shuffle ok -> Forall (fun t => valid_utf8 t = true) texts ->
  did_change fuel o ok fs (FileUri p) texts sv = Done sv' -> up_to_date fs sv'.
Proof.
  intros fuel o ok fs p texts sv sv' Hs Hd Ho Hk Hv E. unfold did_change in E. cbn [to_file_path] in E. destruct texts as [|text texts]; [discriminate|].
  inversion Hv as [|? ? Hv1 _]; subst.
  exact (C47_open_published fuel o ok fs p text sv sv' Hs Hd Ho Hk Hv1 E).
Qed.
Print Assumptions C47_change_published.
(** for a file that is still there under its canonical path, these are the diagnostics the project stores *)
Theorem C47_stored : forall fs sv k v, up_to_date fs sv -> fget k (pj_files (sv_project sv)) = Some v -> fs_canon fs k = inl k ->
  client_view (sv_sent sv) (FileUri k) = map shown (pf_pdiags v ++ pf_adiags v).
Proof.
  intros fs sv k v U H C. rewrite U; [|eapply m_get_key, H]. f_equal. unfold get_diagnostics, get_file. rewrite C, H. reflexivity.
Qed.
(** publishing does not panic: a notification fails only if the project fails *)
Theorem C47_no_panic : forall fuel o ok fs p text sv, served sv -> disk fs fuel -> order_ok o -> shuffle ok -> valid_utf8 text = true ->
  (exists sv', did_open fuel o ok fs (FileUri p) text sv = Done sv')
  \/ add_file_with_text fuel o fs p text (file_type_of_path p) (sv_project sv) = Panic.
Proof.
  intros fuel o ok fs p text sv Hs [Ha (l & Hf & Hl)] Ho Hk Hv. unfold did_open. cbn [to_file_path]. pose proof (served_inv _ Hs) as Hi.
  destruct (fs_canon fs p) as [root|e] eqn:Ec; [|right; unfold add_file_with_text; rewrite Ec; reflexivity].
  destruct (add_spec fs l fuel o p root text (file_type_of_path p) (sv_project sv) Hf Hl Ho Ec Hv (reached_inv _ (si_reached _ Hi))) as (files' & _ & [[_ X]|(_ & order & pj' & X & _)]).
  - right. exact X.
  - left. rewrite X. cbn [obind]. destruct (publish_spec ok fs (mkServer pj' (sv_sent sv)) Hk) as (sv2 & E2 & _).
    + cbn [sv_project]. eapply add_server_inv; eassumption.
    + exists sv2. exact E2.
Qed.
Print Assumptions C47_no_panic.

Lemma mem_disk l fuel : forallb (fun k => match k with 47 :: _ => true | _ => false end) (m_keys l) = true -> (length (m_keys l) < fuel)%nat -> disk (mem_fs l) fuel.
Proof.
  intros H Hl. split.
  - intros x p E. cbn in E. unfold m_mem in E. destruct (m_get str_eq_dec x l) as [t|] eqn:G; [|discriminate]. injection E as <-.
    rewrite forallb_forall in H. specialize (H x (m_get_key _ _ _ _ G)). destruct x as [|c x]; [discriminate|]. destruct c as [|c]; [discriminate|].
    destruct (Pos.eq_dec c 47) as [->|N]; [exists x; reflexivity|]. exfalso. repeat (destruct c as [c|c|]; try discriminate). exact (N eq_refl).
  - exists (m_keys l). split; [apply mem_fs_finite|exact Hl].
Qed.
Lemma id_shuffle : shuffle (fun l => l).
Proof. intros l. apply Permutation_refl. Qed.

Definition ex47 : list (fpath * str) := [(bs "/a.dts", bs ""); (bs "/b.dtsi", bs "/ { }")].
Definition text47 : str := bs "/dts-v1/; /include/ ""/b.dtsi"" / { p = <&l>; };".
Definition unwrap_sv (r : outcome server) : server := match r with Done sv => sv | _ => server_new end.
Definition sv47 : server := unwrap_sv (did_open 5 id_oracle (fun l => l) (mem_fs ex47) (FileUri (bs "/a.dts")) text47 server_new).
Lemma sv47_done : did_open 5 id_oracle (fun l => l) (mem_fs ex47) (FileUri (bs "/a.dts")) text47 server_new = Done sv47.
Proof. vm_compute. reflexivity. Qed.
Lemma sv47_served : served sv47.
Proof.
  apply (se_open 5 id_oracle (fun l => l) (mem_fs ex47) (FileUri (bs "/a.dts")) text47 server_new);
    [constructor|apply mem_disk; [reflexivity|cbn; lia]|apply id_order_ok|apply id_shuffle| |apply sv47_done]. vm_compute. reflexivity.
Qed.
Example C47_case : map (fun d => (ld_code d, pos_char (span_start (ld_range d)))) (client_view (sv_sent sv47) (FileUri (bs "/a.dts"))) = [(bs "errors_in_include", 10); (bs "unresolved_reference", 39)]
  /\ map (fun d => (ld_code d, pos_char (span_start (ld_range d)))) (client_view (sv_sent sv47) (FileUri (bs "/b.dtsi"))) = [(bs "expected", 5)].
Proof. vm_compute. split; reflexivity. Qed.

(** ** C48: closing *)
Theorem C48_refuted : exists fs p sv, served sv /\ fs_canon fs p = inl p /\ client_view (sv_sent (did_close fs (FileUri p) sv)) (FileUri p) <> []
  /\ fget p (pj_files (sv_project (did_close fs (FileUri p) sv))) = None.
Proof.
  exists (mem_fs ex47), (bs "/a.dts"), sv47. split; [apply sv47_served|]. split; [vm_compute; reflexivity|]. split; [vm_compute; discriminate|vm_compute; reflexivity].
Qed.
Print Assumptions C48_refuted.
(** exactly: closing sends nothing *)
Theorem C48_kept : forall fs u sv u', client_view (sv_sent (did_close fs u sv)) u' = client_view (sv_sent sv) u'.
Proof. intros fs u sv u'. unfold did_close. destruct (to_file_path u); reflexivity. Qed.
(** and later notifications do not clear the diagnostics of a file that is not in the project any more *)
Theorem C48_kept_later : forall fuel o ok fs p text sv sv' u, served sv -> disk fs fuel -> order_ok o -> shuffle ok -> valid_utf8 text = true ->
  did_open fuel o ok fs (FileUri p) text sv = Done sv' -> (forall k, In k (keys (pj_files (sv_project sv'))) -> u <> FileUri k) ->
  client_view (sv_sent sv') u = client_view (sv_sent sv) u.
Proof.
  intros fuel o ok fs p text sv sv' u Hs [Ha (l & Hf & Hl)] Ho Hk Hv E Hu. unfold did_open in E. cbn [to_file_path] in E.
  destruct (add_file_with_text fuel o fs p text (file_type_of_path p) (sv_project sv)) as [pj| |] eqn:Ea; cbn [obind] in E; try discriminate.
  destruct (publish_spec ok fs (mkServer pj (sv_sent sv)) Hk) as (sv2 & E2 & E3 & _ & U).
  - cbn [sv_project]. eapply add_server_inv; try eassumption. apply served_inv, Hs.
  - rewrite E in E2. injection E2 as <-. rewrite U; [reflexivity|]. cbn [sv_project]. rewrite E3 in Hu. exact Hu.
Qed.
Print Assumptions C48_kept_later.

(** ** C49: the text of a change *)
Theorem C49_refuted : exists fuel o ok fs p texts sv sv' v, served sv /\ disk fs fuel /\ order_ok o /\ shuffle ok
  /\ did_change fuel o ok fs (FileUri p) texts sv = Done sv' /\ fget p (pj_files (sv_project sv')) = Some v /\ fs_canon fs p = inl p
  /\ texts <> [] /\ pf_text v <> last texts [].
Proof.
  set (texts := [bs "/dts-v1/;"; bs "/dts-v1/; / { };"]).
  set (r := did_change 5 id_oracle (fun l => l) (mem_fs ex47) (FileUri (bs "/a.dts")) texts server_new).
  exists 5%nat, id_oracle, (fun l => l), (mem_fs ex47), (bs "/a.dts"), texts, server_new, (unwrap_sv r).
  destruct (fget (bs "/a.dts") (pj_files (sv_project (unwrap_sv r)))) as [v|] eqn:Ev; [|vm_compute in Ev; discriminate]. exists v.
  split; [constructor|]. split; [apply mem_disk; [reflexivity|cbn; lia]|]. split; [apply id_order_ok|]. split; [apply id_shuffle|].
  split; [vm_compute; reflexivity|]. split; [reflexivity|]. split; [vm_compute; reflexivity|]. split; [discriminate|].
  assert (K : option_map pf_text (fget (bs "/a.dts") (pj_files (sv_project (unwrap_sv r)))) = Some (bs "/dts-v1/;")) by (vm_compute; reflexivity).
  rewrite Ev in K. cbn [option_map] in K. injection K as ->. vm_compute. discriminate.
Qed.
Print Assumptions C49_refuted.
(** exactly: only the first change counts; without changes the server panics *)
Theorem C49_first_only : forall fuel o ok fs u text texts sv, did_change fuel o ok fs u (text :: texts) sv = did_change fuel o ok fs u [text] sv.
Proof. reflexivity. Qed.
Theorem C49_empty_refuted : exists fuel o ok fs p sv, served sv /\ disk fs fuel /\ order_ok o /\ shuffle ok /\ fs_canon fs p = inl p
  /\ did_change fuel o ok fs (FileUri p) [] sv = Panic.
Proof.
  exists 5%nat, id_oracle, (fun l => l), (mem_fs ex47), (bs "/a.dts"), server_new.
  split; [constructor|]. split; [apply mem_disk; [reflexivity|cbn; lia]|]. split; [apply id_order_ok|]. split; [apply id_shuffle|]. split; vm_compute; reflexivity.
Qed.
(** Missing for the full claim: several changes, where it is false. *)
Theorem C49_single_partial : forall fuel o ok fs p text sv sv', served sv -> disk fs fuel -> order_ok o -> shuffle ok -> valid_utf8 text = true ->
  did_change fuel o ok fs (FileUri p) [text] sv = Done sv' ->
  exists root v, fs_canon fs p = inl root /\ fget root (pj_files (sv_project sv')) = Some v /\ pf_text v = text.
Proof.
  intros fuel o ok fs p text sv sv' Hs [Ha (l & Hf & Hl)] Ho Hk Hv E. unfold did_change in E. cbn [to_file_path] in E.
  destruct (add_file_with_text fuel o fs p text (file_type_of_path p) (sv_project sv)) as [pj| |] eqn:Ea; cbn [obind] in E; try discriminate.
  apply publish_project in E. cbn [sv_project] in E. rewrite E. pose proof (served_inv _ Hs) as Hi.
  destruct (fs_canon fs p) as [root|e] eqn:Ec; [|unfold add_file_with_text in Ea; rewrite Ec in Ea; discriminate]. exists root.
  destruct (add_done fs l fuel o p root text (file_type_of_path p) (sv_project sv) pj Hf Hl Ho Ec Hv (si_reached _ Hi) Ea) as (files' & order & L & _ & _ & _ & _ & _ & _ & _ & S).
  destruct (li_root _ _ _ _ _ _ _ L) as (w & W1 & W2 & _). specialize (S root). rewrite W1 in S.
  destruct (fget root (pj_files pj)) as [v|]; [|contradiction]. exists v. split; [reflexivity|]. split; [reflexivity|]. destruct S as (_ & _ & _ & S). congruence.
Qed.
Print Assumptions C49_single_partial.
Example C49_case : exists v, fget (bs "/a.dts") (pj_files (sv_project sv47)) = Some v /\ pf_text v = text47.
Proof.
  destruct (fget (bs "/a.dts") (pj_files (sv_project sv47))) as [v|] eqn:E; [|vm_compute in E; discriminate]. exists v. split; [reflexivity|].
  assert (K : option_map pf_text (fget (bs "/a.dts") (pj_files (sv_project sv47))) = Some text47) by (vm_compute; reflexivity). rewrite E in K.
  cbn [option_map] in K. injection K as ->. reflexivity.
Qed.

(** ** C52: notifications handled concurrently *)
(** a handler after its update: it has still to publish *)
Definition current_view (fs : fsys) (sv : server) (k : fpath) : Prop :=
  client_view (sv_sent sv) (FileUri k) = map shown (get_diagnostics fs (sv_project sv) k).
Definition harmless (fs : fsys) (pj : project) (t : task) : Prop :=
  match t with
  | TUpdate _ => False
  | TSnapshot | TLoop _ => True
  | TSend u ds _ => exists k, u = FileUri k /\ ds = map shown (get_diagnostics fs pj k)
  end.
Definition will_publish (pj : project) (t : task) (k : fpath) : Prop :=
  match t with
  | TUpdate _ => False
  | TSnapshot => In k (keys (pj_files pj))
  | TLoop l => In k l
  | TSend u _ l => u = FileUri k \/ In k l
  end.
Lemma step_harmless fs sv t sv1 t' : task_step fs sv t = Some (sv1, t') -> harmless fs (sv_project sv) t ->
  sv_project sv1 = sv_project sv
  /\ Forall (harmless fs (sv_project sv)) (match t' with Some x => [x] | None => [] end)
  /\ (forall k, current_view fs sv k -> current_view fs sv1 k)
  /\ (forall k, will_publish (sv_project sv) t k -> current_view fs sv1 k \/ exists x, t' = Some x /\ will_publish (sv_project sv) x k).
Proof.
  intros Hst Ht.
    destruct t as [g| |l|u ds l]; cbn [harmless] in Ht; [contradiction| | |].
      - cbn [task_step] in Hst. injection Hst as <- <-. split; [reflexivity|]. split; [repeat constructor|]. split; [auto|]. intros k Hk. right. eexists. split; [reflexivity|exact Hk].
      - destruct l as [|k0 l]; cbn [task_step] in Hst.
        + injection Hst as <- <-. split; [reflexivity|]. split; [constructor|]. split; [auto|]. intros k [].
        + destruct (from_file_path k0) as [u|] eqn:Eu; [|discriminate]. injection Hst as <- <-. split; [reflexivity|].
          assert (u = FileUri k0) as ->.
          { unfold from_file_path in Eu. destruct k0 as [|c k0]; [discriminate|]. destruct c as [|c]; [discriminate|].
            repeat (destruct c as [c|c|]; try discriminate). injection Eu as <-. reflexivity. }
          split; [|split; [auto|]].
          * constructor; [|constructor]. exists k0. split; reflexivity.
          * intros k [->|Hk]; right; eexists; (split; [reflexivity|]); cbn [will_publish]; auto.
      - cbn [task_step] in Hst. injection Hst as <- <-. destruct Ht as (k0 & -> & ->). split; [reflexivity|]. split; [repeat constructor|].
        assert (V : forall k, client_view (sv_sent sv ++ [(FileUri k0, map shown (get_diagnostics fs (sv_project sv) k0))]) (FileUri k)
          = if uri_eq_dec (FileUri k0) (FileUri k) then map shown (get_diagnostics fs (sv_project sv) k0) else client_view (sv_sent sv) (FileUri k)).
        { intros k. rewrite view_app. reflexivity. }
        split.
        + intros k Hk. unfold current_view. cbn [sv_sent sv_project]. rewrite V. destruct (uri_eq_dec (FileUri k0) (FileUri k)) as [E|E]; [|exact Hk].
          injection E as ->. reflexivity.
        + intros k [E|Hk].
          * left. injection E as ->. unfold current_view. cbn [sv_sent sv_project]. rewrite V. destruct (uri_eq_dec (FileUri k) (FileUri k)) as [_|E]; [reflexivity|contradiction].
          * right. eexists. split; [reflexivity|exact Hk].
Qed.
Lemma quiescent fs sv tasks sv' : exec fs sv tasks sv' -> Forall (harmless fs (sv_project sv)) tasks ->
  sv_project sv' = sv_project sv
  /\ forall k, current_view fs sv k \/ (exists t, In t tasks /\ will_publish (sv_project sv) t k) -> current_view fs sv' k.
Proof.
  induction 1 as [sv|sv sv1 sv2 pre t post t' Hst Hex IH]; intros Hh.
  - split; [reflexivity|]. intros k [H|(t & [] & _)]. exact H.
  - apply Forall_app in Hh. destruct Hh as [Hpre Hh]. inversion Hh as [|? ? Ht Hpost]; subst.
    destruct (step_harmless _ _ _ _ _ Hst Ht) as (Q1 & Q2 & Q3 & Q4). rewrite Q1 in IH. destruct IH as [IH1 IH2].
    { apply Forall_app. split; [exact Hpre|]. apply Forall_app. split; [exact Q2|exact Hpost]. }
    split; [exact IH1|]. intros k [Hk|(x & Hx & Hk)]; apply IH2.
    + left. apply Q3, Hk.
    + apply in_app_or in Hx. destruct Hx as [Hx|[<-|Hx]].
      * right. exists x. split; [apply in_or_app; left; exact Hx|exact Hk].
      * destruct (Q4 k Hk) as [Hc|(y & -> & Hy)]; [left; exact Hc|]. right. exists y. split; [|exact Hy]. apply in_or_app. right. left. reflexivity.
      * right. exists x. split; [|exact Hk]. apply in_or_app. right. apply in_or_app. right. exact Hx.
Qed.
(** Missing for the full claim: schedules in which a handler reads diagnostics before the update of another one, where it is false.
    If all updates come first, any interleaving of any number of publishing handlers leaves the client up to date. *)
Theorem C52_updates_first_partial : forall fs sv n sv', exec fs sv (repeat TSnapshot (S n)) sv' ->
  sv_project sv' = sv_project sv /\ up_to_date fs sv'.
Proof.
  intros fs sv n sv' H. destruct (quiescent _ _ _ _ H) as [Q1 Q2].
  - apply Forall_forall. intros t Ht. apply repeat_spec in Ht. subst t. exact I.
  - split; [exact Q1|]. intros k Hk. rewrite Q1 in Hk. apply Q2. right. exists TSnapshot. split; [left; reflexivity|exact Hk].
Qed.
Print Assumptions C52_updates_first_partial.

(** schedules in which no update comes between the reading and the sending of the diagnostics of one file *)
Definition sending (t : task) : bool := match t with TSend _ _ _ => true | _ => false end.
Inductive exec_quiet (fs : fsys) : server -> list task -> server -> Prop :=
| quiet_done sv : exec_quiet fs sv [] sv
| quiet_step sv sv1 sv2 pre t post t' :
    task_step fs sv t = Some (sv1, t') ->
    ((exists f, t = TUpdate f) -> forall x, In x (pre ++ post) -> sending x = false) ->
    exec_quiet fs sv1 (pre ++ match t' with Some x => [x] | None => [] end ++ post) sv2 ->
    exec_quiet fs sv (pre ++ t :: post) sv2.
Lemma quiet_is_exec fs sv tasks sv' : exec_quiet fs sv tasks sv' -> exec fs sv tasks sv'.
Proof. induction 1 as [|sv sv1 sv2 pre t post t' Hst _ _ IH]; [apply exec_done|]. exact (exec_step fs sv sv1 sv2 pre t post t' Hst IH). Qed.
Lemma quiet_up_to_date fs sv tasks sv' : exec_quiet fs sv tasks sv' ->
  Forall (fun t => sending t = true -> harmless fs (sv_project sv) t) tasks ->
  (exists f, In (TUpdate f) tasks)
  \/ (forall k, In k (keys (pj_files (sv_project sv))) -> current_view fs sv k \/ exists t, In t tasks /\ will_publish (sv_project sv) t k) ->
  up_to_date fs sv'.
Proof.
  induction 1 as [sv|sv sv1 sv2 pre t post t' Hst Hq Hex IH]; intros Hh Hw.
  - destruct Hw as [(f & [])|Hw]. intros k Hk. destruct (Hw k Hk) as [H|(t & [] & _)]. exact H.
  - apply Forall_app in Hh. destruct Hh as [Hpre Hh]. inversion Hh as [|? ? Ht Hpost]; subst.
    destruct (match t with TUpdate _ => true | _ => false end) eqn:Et.
    + destruct t as [g| |l|u ds l]; try discriminate. cbn [task_step] in Hst. injection Hst as <- <-. cbn [sv_project] in IH.
      specialize (Hq (ex_intro _ g eq_refl)). apply IH.
      * apply Forall_app. split; [|apply Forall_app; split; [repeat constructor; discriminate|]]; apply Forall_forall; intros x Hx E;
          rewrite Hq in E; try discriminate; apply in_or_app; [left|right]; exact Hx.
      * right. intros k Hk. right. exists TSnapshot. split; [apply in_or_app; right; left; reflexivity|exact Hk].
    + assert (Hth : harmless fs (sv_project sv) t) by (destruct t; try discriminate; try exact I; apply Ht; reflexivity).
      destruct (step_harmless _ _ _ _ _ Hst Hth) as (Q1 & Q2 & Q3 & Q4). rewrite Q1 in IH. apply IH.
      * apply Forall_app. split; [exact Hpre|]. apply Forall_app. split; [|exact Hpost].
        eapply Forall_impl; [|exact Q2]. intros x Hx _. exact Hx.
      * destruct Hw as [(f & Hf)|Hw].
        -- left. exists f. apply in_app_or in Hf. destruct Hf as [Hf|[E|Hf]]; [apply in_or_app; left; exact Hf| |apply in_or_app; right; apply in_or_app; right; exact Hf].
           subst t. discriminate.
        -- right. intros k Hk. destruct (Hw k Hk) as [Hc|(x & Hx & Hp)]; [left; apply Q3, Hc|].
           apply in_app_or in Hx. destruct Hx as [Hx|[<-|Hx]].
           ++ right. exists x. split; [apply in_or_app; left; exact Hx|exact Hp].
           ++ destruct (Q4 k Hp) as [Hc|(y & -> & Hy)]; [left; exact Hc|]. right. exists y. split; [|exact Hy]. apply in_or_app. right. left. reflexivity.
           ++ right. exists x. split; [|exact Hp]. apply in_or_app. right. apply in_or_app. right. exact Hx.
Qed.
(** Any number of notifications, each updating the project and publishing, interleaved in any way
    that has no update between the reading and the sending of the diagnostics of a file.
    Missing for the full claim: schedules without this restriction, where it is false. *)
Theorem C52_interleaved_partial : forall fs sv updates sv', updates <> [] ->
  exec_quiet fs sv (map TUpdate updates) sv' -> up_to_date fs sv'.
Proof.
  intros fs sv updates sv' Hne H. apply (quiet_up_to_date _ _ _ _ H).
  - apply Forall_forall. intros t Ht. apply in_map_iff in Ht. destruct Ht as (f & <- & _). discriminate.
  - left. destruct updates as [|f r]; [contradiction|]. exists f. left. reflexivity.
Qed.
Print Assumptions C52_interleaved_partial.

(** Whatever the schedule: nothing is sent that was not the diagnostics of the file in a state the project had. *)
Inductive had (f0 : project) : list (project -> project) -> project -> Prop :=
| had_now us : had f0 us f0
| had_later us u pj : In u us -> had f0 us pj -> had f0 us (u pj).
Definition honest (fs : fsys) (pj0 : project) (us : list (project -> project)) (p : publication) : Prop :=
  exists k pj, had pj0 us pj /\ fst p = FileUri k /\ snd p = map shown (get_diagnostics fs pj k).
Lemma exec_honest fs pj0 us sv tasks sv' : exec fs sv tasks sv' -> had pj0 us (sv_project sv) ->
  Forall (fun t => match t with TUpdate f => In f us | TSend u ds _ => honest fs pj0 us (u, ds) | _ => True end) tasks ->
  exists more, sv_sent sv' = sv_sent sv ++ more /\ Forall (honest fs pj0 us) more.
Proof.
  induction 1 as [sv|sv sv1 sv2 pre t post t' Hst Hex IH]; intros Hp Ht.
  - exists []. rewrite app_nil_r. split; [reflexivity|constructor].
  - apply Forall_app in Ht. destruct Ht as [Hpre Ht]. inversion Ht as [|? ? Ht0 Hpost]; subst.
    destruct t as [g| |l|u ds l]; cbn [task_step] in Hst.
    + injection Hst as <- <-. cbn [sv_project sv_sent] in IH. apply IH; [apply had_later; assumption|].
      apply Forall_app. split; [exact Hpre|]. constructor; [exact I|exact Hpost].
    + injection Hst as <- <-. apply IH; [exact Hp|]. apply Forall_app. split; [exact Hpre|]. constructor; [exact I|exact Hpost].
    + destruct l as [|k0 l].
      * injection Hst as <- <-. apply IH; [exact Hp|]. apply Forall_app. split; [exact Hpre|exact Hpost].
      * destruct (from_file_path k0) as [u|] eqn:Eu; [|discriminate]. injection Hst as <- <-. apply IH; [exact Hp|].
        apply Forall_app. split; [exact Hpre|]. constructor; [|exact Hpost].
        exists k0, (sv_project sv). split; [exact Hp|]. split; [|reflexivity]. cbn [fst].
        unfold from_file_path in Eu. destruct k0 as [|c k0]; [discriminate|]. destruct c as [|c]; [discriminate|].
        repeat (destruct c as [c|c|]; try discriminate). injection Eu as <-. reflexivity.
    + injection Hst as <- <-. cbn [sv_project sv_sent] in IH. destruct IH as (more & E & Hm); [exact Hp| |].
      * apply Forall_app. split; [exact Hpre|]. constructor; [exact I|exact Hpost].
      * exists ((u, ds) :: more). split; [rewrite E, <- app_assoc; reflexivity|]. constructor; assumption.
Qed.
Theorem C52_honest : forall fs sv updates sv', exec fs sv (map TUpdate updates) sv' ->
  exists more, sv_sent sv' = sv_sent sv ++ more
    /\ forall u ds, In (u, ds) more -> exists k pj, had (sv_project sv) updates pj /\ u = FileUri k /\ ds = map shown (get_diagnostics fs pj k).
Proof.
  intros fs sv updates sv' H. destruct (exec_honest fs (sv_project sv) updates _ _ _ H) as (more & E & Hm).
  - apply had_now.
  - apply Forall_forall. intros t Ht. apply in_map_iff in Ht. destruct Ht as (f & <- & Hf). exact Hf.
  - exists more. split; [exact E|]. intros u ds Hin. rewrite Forall_forall in Hm. exact (Hm _ Hin).
Qed.
Print Assumptions C52_honest.

(** the claim is false: the first handler is suspended after it has read the diagnostics of its own update *)
Definition update52 (text : str) (pj : project) : project :=
  unwrap (add_file_with_text 5 id_oracle (mem_fs ex47) (bs "/b.dtsi") text DtSourceInclude pj).
Theorem C52_refuted : exists fs f1 f2 sv', exec fs server_new [TUpdate f1; TUpdate f2] sv'
  /\ (forall pj, exists text, f1 pj = unwrap (add_file_with_text 5 id_oracle fs (bs "/b.dtsi") text DtSourceInclude pj))
  /\ (forall pj, exists text, f2 pj = unwrap (add_file_with_text 5 id_oracle fs (bs "/b.dtsi") text DtSourceInclude pj))
  /\ disk fs 5 /\ ~ up_to_date fs sv' /\ In (bs "/b.dtsi") (keys (pj_files (sv_project sv'))).
Proof.
  set (f1 := update52 (bs "/ { }")). set (f2 := update52 (bs "/ { };")). set (fs := mem_fs ex47). set (k := bs "/b.dtsi").
  set (pj1 := f1 project_new). set (pj2 := f2 pj1). set (d1 := map shown (get_diagnostics fs pj1 k)).
  exists fs, f1, f2, (mkServer pj2 [(FileUri k, []); (FileUri k, d1)]).
  assert (K1 : m_keys (pj_files pj1) = [k]) by (vm_compute; reflexivity). assert (K2 : m_keys (pj_files pj2) = [k]) by (vm_compute; reflexivity).
  assert (D2 : get_diagnostics fs pj2 k = []) by (vm_compute; reflexivity).
  split; [|split; [intros pj; eexists; reflexivity|split; [intros pj; eexists; reflexivity|split; [apply mem_disk; [reflexivity|cbn; lia]|split]]]].
  - apply (exec_step fs _ (mkServer pj1 []) _ [] (TUpdate f1) [TUpdate f2] (Some TSnapshot)); [reflexivity|]. cbn [app].
    apply (exec_step fs _ (mkServer pj1 []) _ [] TSnapshot [TUpdate f2] (Some (TLoop [k]))); [cbn [task_step sv_project]; rewrite K1; reflexivity|]. cbn [app].
    apply (exec_step fs _ (mkServer pj1 []) _ [] (TLoop [k]) [TUpdate f2] (Some (TSend (FileUri k) d1 []))); [reflexivity|]. cbn [app].
    apply (exec_step fs _ (mkServer pj2 []) _ [TSend (FileUri k) d1 []] (TUpdate f2) [] (Some TSnapshot)); [reflexivity|]. cbn [app].
    apply (exec_step fs _ (mkServer pj2 []) _ [TSend (FileUri k) d1 []] TSnapshot [] (Some (TLoop [k]))); [cbn [task_step sv_project]; rewrite K2; reflexivity|]. cbn [app].
    apply (exec_step fs _ (mkServer pj2 []) _ [TSend (FileUri k) d1 []] (TLoop [k]) [] (Some (TSend (FileUri k) [] []))); [cbn [task_step sv_project]; rewrite D2; reflexivity|]. cbn [app].
    apply (exec_step fs _ (mkServer pj2 [(FileUri k, [])]) _ [TSend (FileUri k) d1 []] (TSend (FileUri k) [] []) [] (Some (TLoop []))); [reflexivity|]. cbn [app].
    apply (exec_step fs _ (mkServer pj2 [(FileUri k, [])]) _ [TSend (FileUri k) d1 []] (TLoop []) [] None); [reflexivity|]. cbn [app].
    apply (exec_step fs _ (mkServer pj2 [(FileUri k, []); (FileUri k, d1)]) _ [] (TSend (FileUri k) d1 []) [] (Some (TLoop []))); [reflexivity|]. cbn [app].
    apply (exec_step fs _ (mkServer pj2 [(FileUri k, []); (FileUri k, d1)]) _ [] (TLoop []) [] None); [reflexivity|]. apply exec_done.
  - intros U. specialize (U k). cbn [sv_project sv_sent] in U. rewrite K2, D2 in U. specialize (U (or_introl eq_refl)).
    assert (L : length (client_view [(FileUri k, []); (FileUri k, d1)] (FileUri k)) = 1%nat) by (vm_compute; reflexivity). rewrite U in L. discriminate.
  - cbn [sv_project]. rewrite K2. left. reflexivity.
Qed.
Print Assumptions C52_refuted.
(** two publishing handlers, one after the update, interleaved *)
Example C52_case : exists sv', exec (mem_fs ex47) (mkServer (update52 (bs "/ { }") project_new) []) (repeat TSnapshot 2) sv'
  /\ length (sv_sent sv') = 2%nat.
Proof.
  set (fs := mem_fs ex47). set (k := bs "/b.dtsi"). set (pj1 := update52 (bs "/ { }") project_new). set (d1 := map shown (get_diagnostics fs pj1 k)).
  assert (K1 : m_keys (pj_files pj1) = [k]) by (vm_compute; reflexivity).
  exists (mkServer pj1 [(FileUri k, d1); (FileUri k, d1)]). split; [|reflexivity]. cbn [repeat].
  apply (exec_step fs _ (mkServer pj1 []) _ [] TSnapshot [TSnapshot] (Some (TLoop [k]))); [cbn [task_step sv_project]; rewrite K1; reflexivity|]. cbn [app].
  apply (exec_step fs _ (mkServer pj1 []) _ [TLoop [k]] TSnapshot [] (Some (TLoop [k]))); [cbn [task_step sv_project]; rewrite K1; reflexivity|]. cbn [app].
  apply (exec_step fs _ (mkServer pj1 []) _ [] (TLoop [k]) [TLoop [k]] (Some (TSend (FileUri k) d1 []))); [reflexivity|]. cbn [app].
  apply (exec_step fs _ (mkServer pj1 []) _ [TSend (FileUri k) d1 []] (TLoop [k]) [] (Some (TSend (FileUri k) d1 []))); [reflexivity|]. cbn [app].
  apply (exec_step fs _ (mkServer pj1 [(FileUri k, d1)]) _ [TSend (FileUri k) d1 []] (TSend (FileUri k) d1 []) [] (Some (TLoop []))); [reflexivity|]. cbn [app].
  apply (exec_step fs _ (mkServer pj1 [(FileUri k, d1)]) _ [TSend (FileUri k) d1 []] (TLoop []) [] None); [reflexivity|]. cbn [app].
  apply (exec_step fs _ (mkServer pj1 [(FileUri k, d1); (FileUri k, d1)]) _ [] (TSend (FileUri k) d1 []) [] (Some (TLoop []))); [reflexivity|]. cbn [app].
  apply (exec_step fs _ (mkServer pj1 [(FileUri k, d1); (FileUri k, d1)]) _ [] (TLoop []) [] None); [reflexivity|]. apply exec_done.
Qed.
(** two notifications; the update of the second one comes when the first one has listed the files but not yet read their diagnostics *)
Example C52_interleaved_case : exists sv', exec_quiet (mem_fs ex47) server_new (map TUpdate [update52 (bs "/ { }"); update52 (bs "/ { };")]) sv'
  /\ sv_sent sv' = [(FileUri (bs "/b.dtsi"), []); (FileUri (bs "/b.dtsi"), [])].
Proof.
  set (f1 := update52 (bs "/ { }")). set (f2 := update52 (bs "/ { };")). set (fs := mem_fs ex47). set (k := bs "/b.dtsi").
  set (pj1 := f1 project_new). set (pj2 := f2 pj1).
  assert (K1 : m_keys (pj_files pj1) = [k]) by (vm_compute; reflexivity). assert (K2 : m_keys (pj_files pj2) = [k]) by (vm_compute; reflexivity).
  assert (D2 : get_diagnostics fs pj2 k = []) by (vm_compute; reflexivity).
  exists (mkServer pj2 [(FileUri k, []); (FileUri k, [])]). split; [|reflexivity]. cbn [map].
  apply (quiet_step fs _ (mkServer pj1 []) _ [] (TUpdate f1) [TUpdate f2] (Some TSnapshot)); [reflexivity| |].
  { intros _ x [<-|[]]. reflexivity. }
  cbn [app]. apply (quiet_step fs _ (mkServer pj1 []) _ [] TSnapshot [TUpdate f2] (Some (TLoop [k]))); [cbn [task_step sv_project]; rewrite K1; reflexivity|intros (f & E); discriminate|].
  cbn [app]. apply (quiet_step fs _ (mkServer pj2 []) _ [TLoop [k]] (TUpdate f2) [] (Some TSnapshot)); [reflexivity| |].
  { intros _ x [<-|[]]. reflexivity. }
  cbn [app]. apply (quiet_step fs _ (mkServer pj2 []) _ [] (TLoop [k]) [TSnapshot] (Some (TSend (FileUri k) [] []))); [cbn [task_step sv_project]; rewrite D2; reflexivity|intros (f & E); discriminate|].
  cbn [app]. apply (quiet_step fs _ (mkServer pj2 []) _ [TSend (FileUri k) [] []] TSnapshot [] (Some (TLoop [k]))); [cbn [task_step sv_project]; rewrite K2; reflexivity|intros (f & E); discriminate|].
  cbn [app]. apply (quiet_step fs _ (mkServer pj2 []) _ [TSend (FileUri k) [] []] (TLoop [k]) [] (Some (TSend (FileUri k) [] []))); [cbn [task_step sv_project]; rewrite D2; reflexivity|intros (f & E); discriminate|].
  cbn [app]. apply (quiet_step fs _ (mkServer pj2 [(FileUri k, [])]) _ [] (TSend (FileUri k) [] []) [TSend (FileUri k) [] []] (Some (TLoop []))); [reflexivity|intros (f & E); discriminate|].
  cbn [app]. apply (quiet_step fs _ (mkServer pj2 [(FileUri k, []); (FileUri k, [])]) _ [TLoop []] (TSend (FileUri k) [] []) [] (Some (TLoop []))); [reflexivity|intros (f & E); discriminate|].
  cbn [app]. apply (quiet_step fs _ (mkServer pj2 [(FileUri k, []); (FileUri k, [])]) _ [TLoop []] (TLoop []) [] None); [reflexivity|intros (f & E); discriminate|].
  cbn [app]. apply (quiet_step fs _ (mkServer pj2 [(FileUri k, []); (FileUri k, [])]) _ [] (TLoop []) [] None); [reflexivity|intros (f & E); discriminate|]. apply quiet_done.
Qed.
