(** The language server from outside: C86 documents that are not files, C87 directories given on its command line *)
From Verif Require Import Parser Cli LsMain LexSpec ParserBase ProjectSpec ProjectProofs2 ProjectHistory ServerProofs PropsProject PropsProject2 PropsProject3
  PropsServer PropsSymbols PropsSearch PropsHistory PropsServed Tests.

(** ** C86 *)
(** every message with diagnostics is about a file *)
Definition about_files (sent : list publication) : Prop := Forall (fun x => exists p, fst x = FileUri p) sent.
Lemma publish_about ok fs sv sv' : about_files (sv_sent sv) -> publish ok fs sv = Done sv' -> about_files (sv_sent sv').
Proof.
  intros H E. unfold publish in E. destruct (publish_all fs (sv_project sv) _) as [ps| |] eqn:Ep; cbn [obind] in E; try discriminate. injection E as <-.
  cbn [sv_sent]. apply Forall_app. split; [exact H|]. revert ps Ep. generalize (ok (m_keys (pj_files (sv_project sv)))). intros l.
  induction l as [|f l IH]; intros ps Ep; cbn [publish_all] in Ep; [injection Ep as <-; constructor|].
  destruct (from_file_path f) as [u|] eqn:Eu; [|discriminate]. destruct (publish_all fs (sv_project sv) l) as [t| |]; cbn [obind] in Ep; try discriminate.
  injection Ep as <-. constructor; [|exact (IH t eq_refl)]. exists f. cbn [fst].
  unfold from_file_path in Eu. repeat match type of Eu with match ?x with _ => _ end = _ => destruct x; try discriminate Eu end; injection Eu as <-; reflexivity.
Qed.
Lemma served_about sv : served sv -> about_files (sv_sent sv).
Proof.
  induction 1 as [|fs dirs sv _ IH|ok fs dirs sv sv' _ IH Hk E|fuel o ok fs u text sv sv' _ IH Hd Ho Hk Hv E|fuel o ok fs u texts sv sv' _ IH Hd Ho Hk Hv E|fs u sv _ IH].
  - constructor.
  - exact IH.
  - refine (publish_about _ _ _ _ _ E). exact IH.
  - unfold did_open in E. destruct (to_file_path u) as [p|]; [|injection E as <-; exact IH].
    destruct (add_file_with_text _ _ _ _ _ _ _) as [pj| |]; cbn [obind] in E; try discriminate. refine (publish_about _ _ _ _ _ E). exact IH.
  - unfold did_change in E. destruct (to_file_path u) as [p|]; [|injection E as <-; exact IH]. destruct texts as [|text texts]; [discriminate|].
    destruct (add_file_with_text _ _ _ _ _ _ _) as [pj| |]; cbn [obind] in E; try discriminate. refine (publish_about _ _ _ _ _ E). exact IH.
  - unfold did_close. destruct (to_file_path u); exact IH.
Qed.
(** A document that is not a file is never reported on, and no request about it is answered, whatever texts were sent for it. *)
Theorem C86_not_a_file : forall sv s, served sv ->
  client_view (sv_sent sv) (OtherUri s) = []
  /\ forall fs pos, hover fs (OtherUri s) pos sv = None /\ goto_definition fs (OtherUri s) pos sv = Done None /\ document_symbol fs (OtherUri s) sv = None.
Proof.
  intros sv s H. split; [|intros fs pos; split; [|split]; reflexivity]. apply served_about in H. unfold client_view.
  assert (G : forall acc, fold_left (fun acc p => if uri_eq_dec (fst p) (OtherUri s) then snd p else acc) (sv_sent sv) acc = acc); [|apply G].
  induction H as [|x l [p Hp] _ IH]; intros acc; [reflexivity|]. cbn [fold_left]. rewrite IH. destruct (uri_eq_dec (fst x) (OtherUri s)) as [C|]; [rewrite Hp in C; discriminate C|reflexivity].
Qed.
Print Assumptions C86_not_a_file.
(** the claim in full is false: a text with an error, opened as a new document, is not reported; opened as a file it is *)
Definition ex86 : list (fpath * str) := [(bs "/a.dts", [])].
Definition open86 (u : uri) : outcome server := did_open 5 id_oracle (fun l => l) (mem_fs ex86) u (bs "/ {") server_new.
Theorem C86_refuted : exists sv1 sv2, served sv1 /\ served sv2 /\ open86 (OtherUri (bs "untitled:1")) = Done sv1 /\ open86 (FileUri (bs "/a.dts")) = Done sv2
  /\ client_view (sv_sent sv1) (OtherUri (bs "untitled:1")) = [] /\ map ld_code (client_view (sv_sent sv2) (FileUri (bs "/a.dts"))) = [bs "unexpected_eof"].
Proof.
  assert (H : forall u sv, open86 u = Done sv -> served sv).
  { intros u sv E. refine (se_open 5 id_oracle (fun l => l) (mem_fs ex86) u (bs "/ {") server_new sv _ _ _ _ _ E);
      [apply se_new|apply mem_disk; [reflexivity|cbn; lia]|apply id_order_ok|apply id_shuffle|reflexivity]. }
  destruct (open86 (FileUri (bs "/a.dts"))) as [sv2| |] eqn:E2; [|vm_compute in E2; discriminate E2|vm_compute in E2; discriminate E2].
  exists server_new, sv2. split; [apply se_new|]. split; [exact (H _ _ E2)|]. split; [reflexivity|]. split; [reflexivity|]. split; [reflexivity|].
  assert (K : match open86 (FileUri (bs "/a.dts")) with Done sv => map ld_code (client_view (sv_sent sv) (FileUri (bs "/a.dts"))) | _ => [] end = [bs "unexpected_eof"]) by (vm_compute; reflexivity).
  rewrite E2 in K. exact K.
Qed.
Print Assumptions C86_refuted.

(** ** C87 *)
Definition args87 : ls_args := mkLsArgs (Some [bs "/i"]).
Definition open87 (sv : server) : outcome server := did_open 5 id_oracle (fun l => l) (mem_fs ex69c) (FileUri (bs "/d/a.dts")) (bs "/dts-v1/; /include/ ""b.dtsi""") sv.
(** The claim is false: with the same directory on the command line, the command line tool finds the include (it exits with 1 exactly if there is nothing to
    report, C42), the server reports it as missing; given by the configuration of the client the directory is used. *)
Theorem C87_refuted : exists sv1 sv2, open87 (on_initialize (mem_fs ex69c) None (ls_start args87)) = Done sv1
  /\ open87 (on_initialize (mem_fs ex69c) (Some settings73) (ls_start args87)) = Done sv2
  /\ (exists out, cli_main true 5 id_oracle (fun l => l) (mem_fs ex69c) [bs "/i"] (bs "/d/a.dts") = Done (1, out))
  /\ map ld_code (client_view (sv_sent sv1) (FileUri (bs "/d/a.dts"))) = [bs "io_error"; bs "io_error"]
  /\ client_view (sv_sent sv2) (FileUri (bs "/d/a.dts")) = [].
Proof.
  destruct (open87 (on_initialize (mem_fs ex69c) None (ls_start args87))) as [sv1| |] eqn:E1; [|vm_compute in E1; discriminate E1|vm_compute in E1; discriminate E1].
  destruct (open87 (on_initialize (mem_fs ex69c) (Some settings73) (ls_start args87))) as [sv2| |] eqn:E2; [|vm_compute in E2; discriminate E2|vm_compute in E2; discriminate E2].
  exists sv1, sv2. split; [reflexivity|]. split; [reflexivity|]. split; [eexists; vm_compute; reflexivity|].
  assert (K : forall x c, match open87 (on_initialize (mem_fs ex69c) x (ls_start args87)) with Done sv => map ld_code (client_view (sv_sent sv) (FileUri (bs "/d/a.dts"))) = c | _ => True end ->
    forall sv, open87 (on_initialize (mem_fs ex69c) x (ls_start args87)) = Done sv -> map ld_code (client_view (sv_sent sv) (FileUri (bs "/d/a.dts"))) = c).
  { intros x c H sv E. rewrite E in H. exact H. }
  split; [refine (K None _ _ sv1 E1); vm_compute; reflexivity|]. apply (map_eq_nil ld_code). refine (K (Some settings73) _ _ sv2 E2). vm_compute. reflexivity.
Qed.
Print Assumptions C87_refuted.
