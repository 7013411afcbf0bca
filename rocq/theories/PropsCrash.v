(** C89 The language server does not crash: exactly when a notification does *)
From Verif Require Import Parser Analysis Server ProjectSpec ProjectProofs2 ProjectHistory ServerProofs PropsProject PropsServer Tests.

(** After reading the text of a file at [root], some file that is stored or read anew refers to an existing file that is neither stored nor readable. *)
Definition dangles (fs : fsys) (pj : project) (root : fpath) (text : str) : Prop :=
  let old := keys (pj_files pj) in
  let new := loaded fs (pj_incl pj) root text old in
  exists p q, ((new p /\ includes fs (pj_incl pj) root text p q) \/ (p <> root /\ stored_includes fs (pj_files pj) p q)) /\ ~ In q old /\ ~ new q.
(** the document is not on the disk, or there is such a file *)
Definition fatal_text (fs : fsys) (pj : project) (p : fpath) (text : str) : Prop :=
  match fs_canon fs p with inr _ => True | inl root => dangles fs pj root text end.

Lemma notify_panic fuel o ok fs p text sv : served sv -> disk fs fuel -> order_ok o -> shuffle ok -> valid_utf8 text = true ->
  let r := obind (add_file_with_text fuel o fs p text (file_type_of_path p) (sv_project sv)) (fun pj => publish ok fs (mkServer pj (sv_sent sv))) in
  (r = Panic <-> fatal_text fs (sv_project sv) p text) /\ r <> NoFuel.
Proof.
  intros Hs Hd Ho Hk Hv r. subst r. pose proof (served_inv _ Hs) as Hi. destruct Hd as [Ha (u & Hf & Hl)]. unfold fatal_text.
  destruct (fs_canon fs p) as [root|e] eqn:Ec.
  - pose proof (C37_panic_exact fs u fuel o p root text (file_type_of_path p) (sv_project sv) Hf Hl Ho Ec Hv (si_reached _ Hi)) as X. cbv zeta in X.
    destruct (add_spec fs u fuel o p root text (file_type_of_path p) (sv_project sv) Hf Hl Ho Ec Hv (reached_inv _ (si_reached _ Hi))) as (files' & _ & Y).
    destruct (add_file_with_text fuel o fs p text (file_type_of_path p) (sv_project sv)) as [pj| |] eqn:E.
    + cbn [obind]. destruct (publish_spec ok fs (mkServer pj (sv_sent sv)) Hk) as (sv' & -> & _); [exact (add_server_inv fs u fuel o p text _ _ pj Ha Hf Hl Ho Hv Hi E)|].
      split; [|discriminate]. unfold dangles. cbv zeta. rewrite <- X. split; discriminate.
    + cbn [obind]. split; [|discriminate]. split; [intros _; apply X; reflexivity|reflexivity].
    + destruct Y as [[_ Y]|(_ & order & pj' & Y & _)]; discriminate Y.
  - unfold add_file_with_text. rewrite Ec. cbn [obind]. split; [split; [exact (fun _ => I)|reflexivity]|discriminate].
Qed.

(** what the client may send *)
Inductive notification :=
| NOpen (u : uri) (text : str) | NChange (u : uri) (texts : list str) | NClose (u : uri) | NConfigure (dirs : list str).
Definition sendable (n : notification) : Prop :=
  match n with NOpen _ text => valid_utf8 text = true | NChange _ texts => texts <> [] /\ Forall (fun t => valid_utf8 t = true) texts | _ => True end.
Definition handle (fuel : nat) (o : oracle) (ok : list fpath -> list fpath) (fs : fsys) (n : notification) (sv : server) : outcome server :=
  match n with
  | NOpen u text => did_open fuel o ok fs u text sv
  | NChange u texts => did_change fuel o ok fs u texts sv
  | NClose u => Done (did_close fs u sv)
  | NConfigure dirs => did_change_configuration ok fs dirs sv
  end.
(** the text that a notification brings for a file *)
Definition brings (n : notification) : option (fpath * str) :=
  match n with
  | NOpen (FileUri p) text => Some (p, text)
  | NChange (FileUri p) (text :: _) => Some (p, text)
  | _ => None
  end.
(** In every reachable state a notification crashes the server exactly if it brings a text for a file that is not on the disk (any more), or after which a file
    refers to one that exists but is neither stored nor readable (a directory, a removed file); it never runs forever, and otherwise the state reached is one of
    those the theorems about the server speak of. *)
Theorem C89_crash_exact : forall fuel o ok fs n sv, served sv -> disk fs fuel -> order_ok o -> shuffle ok -> sendable n ->
  (handle fuel o ok fs n sv = Panic <-> exists p text, brings n = Some (p, text) /\ fatal_text fs (sv_project sv) p text)
  /\ (handle fuel o ok fs n sv = Panic \/ exists sv', handle fuel o ok fs n sv = Done sv' /\ served sv').
Proof.
  intros fuel o ok fs n sv Hs Hd Ho Hk Hn.
  destruct n as [u text|u texts|u|dirs]; cbn [handle brings sendable] in *.
  - destruct u as [p|s].
    + destruct (notify_panic fuel o ok fs p text sv Hs Hd Ho Hk Hn) as [H1 H2]. unfold did_open at 1 2. cbn [to_file_path].
      split.
      * rewrite H1. split; [intros F; exists p, text; split; [reflexivity|exact F]|intros (p' & t' & E & F); injection E as <- <-; exact F].
      * destruct (obind _ _) as [sv'| |] eqn:E in |- *; [right; exists sv'|left; reflexivity|contradiction H2; exact E]. split; [unfold did_open; cbn [to_file_path]; exact E|].
        exact (se_open fuel o ok fs (FileUri p) text sv sv' Hs Hd Ho Hk Hn E).
    + split; [split; [discriminate|intros (p' & t' & E & _); discriminate E]|]. right. exists sv. split; [reflexivity|exact Hs].
  - destruct Hn as [Hn Hv]. destruct u as [p|s].
    + destruct texts as [|text texts]; [contradiction Hn; reflexivity|].
      destruct (notify_panic fuel o ok fs p text sv Hs Hd Ho Hk (Forall_inv Hv)) as [H1 H2]. unfold did_change at 1 2. cbn [to_file_path].
      split.
      * rewrite H1. split; [intros F; exists p, text; split; [reflexivity|exact F]|intros (p' & t' & E & F); injection E as <- <-; exact F].
      * destruct (obind _ _) as [sv'| |] eqn:E in |- *; [right; exists sv'|left; reflexivity|contradiction H2; exact E]. split; [unfold did_change; cbn [to_file_path]; exact E|].
        exact (se_change fuel o ok fs (FileUri p) (text :: texts) sv sv' Hs Hd Ho Hk Hv E).
    + split; [split; [discriminate|intros (p' & t' & E & _); discriminate E]|]. right. exists sv. split; [reflexivity|exact Hs].
  - split; [split; [discriminate|intros (p' & t' & E & _); discriminate E]|]. right. eexists. split; [reflexivity|apply se_close; exact Hs].
  - destruct (publish_spec ok fs (mkServer (set_include_paths fs dirs (sv_project sv)) (sv_sent sv)) Hk) as (sv' & E & _); [apply dirs_server_inv, served_inv, Hs|].
    unfold did_change_configuration at 1 2. rewrite E. split; [split; [discriminate|intros (p' & t' & E' & _); discriminate E']|]. right. exists sv'. split; [exact E|].
    exact (se_configure ok fs dirs sv sv' Hs Hk E).
Qed.
Print Assumptions C89_crash_exact.

(** so the claim is false: the file of an open document is deleted, the next key stroke crashes the server *)
Definition ex89 : list (fpath * str) := [(bs "/a.dts", bs "/dts-v1/;"); (bs "/b.dts", bs "/dts-v1/;")].
Theorem C89_refuted : exists sv, served sv /\ did_open 5 id_oracle (fun l => l) (mem_fs ex89) (FileUri (bs "/a.dts")) (bs "/dts-v1/;") server_new = Done sv
  /\ did_change 5 id_oracle (fun l => l) (mem_fs (tl ex89)) (FileUri (bs "/a.dts")) [bs "/dts-v1/; "] sv = Panic
  /\ exists sv', did_change 5 id_oracle (fun l => l) (mem_fs ex89) (FileUri (bs "/a.dts")) [bs "/dts-v1/; "] sv = Done sv'.
Proof.
  destruct (did_open 5 id_oracle (fun l => l) (mem_fs ex89) (FileUri (bs "/a.dts")) (bs "/dts-v1/;") server_new) as [sv| |] eqn:E; [|vm_compute in E; discriminate E|vm_compute in E; discriminate E].
  assert (Hs : served sv).
  { refine (se_open 5 id_oracle (fun l => l) (mem_fs ex89) (FileUri (bs "/a.dts")) (bs "/dts-v1/;") server_new sv _ _ _ _ _ E);
      [apply se_new|apply mem_disk; [reflexivity|cbn; lia]|apply id_order_ok|apply id_shuffle|reflexivity]. }
  exists sv. split; [exact Hs|]. split; [reflexivity|].
  assert (D : forall l, (length l <= 2)%nat -> forallb (fun k => match k with 47 :: _ => true | _ => false end) (m_keys l) = true -> disk (mem_fs l) 5).
  { intros l H1 H2. apply mem_disk; [exact H2|]. unfold m_keys. rewrite map_length. lia. }
  split.
  - apply (C89_crash_exact 5 id_oracle (fun l => l) (mem_fs (tl ex89)) (NChange (FileUri (bs "/a.dts")) [bs "/dts-v1/; "]) sv Hs);
      [apply D; [cbn; lia|reflexivity]|apply id_order_ok|apply id_shuffle|split; [discriminate|constructor; [reflexivity|constructor]]|].
    exists (bs "/a.dts"), (bs "/dts-v1/; "). split; [reflexivity|]. exact I.
  - assert (K : match did_open 5 id_oracle (fun l => l) (mem_fs ex89) (FileUri (bs "/a.dts")) (bs "/dts-v1/;") server_new with
                | Done sv => match did_change 5 id_oracle (fun l => l) (mem_fs ex89) (FileUri (bs "/a.dts")) [bs "/dts-v1/; "] sv with Done _ => true | _ => false end
                | _ => false end = true) by (vm_compute; reflexivity).
    rewrite E in K. destruct (did_change 5 id_oracle (fun l => l) (mem_fs ex89) _ _ sv) as [sv'| |]; [exists sv'; reflexivity|discriminate K|discriminate K].
Qed.
Print Assumptions C89_refuted.
