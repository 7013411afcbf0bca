(** C80: files that are no UTF-8 text *)
From Verif Require Import Parser Analysis Project AnalysisSpec ProjectSpec ProjectProofs ProjectProofs2 ProjectHistory PropsProject Utf8 Utf8Adequacy.

(** the bytes encode a sequence of Unicode scalar values *)
Definition is_text (b : list N) : Prop := exists cs, Forall scalar cs /\ b = encoded cs.

(** [add_file] answers with an error exactly if the path does not resolve, the file cannot be read, or its bytes are no text;
    the project is then as before since [add_file] returns no other *)
Theorem C80_add_exact : forall fuel o fs name pj,
  (exists e, add_file fuel o fs name pj = Done (inl e)) <->
  (exists e, fs_canon fs name = inr e)
  \/ (exists p, fs_canon fs name = inl p /\ ((exists e, fs_read fs p = inr e) \/ (exists b, fs_read fs p = inl b /\ ~ is_text b))).
Proof.
  intros fuel o fs name pj. unfold add_file, read_to_string. destruct (fs_canon fs name) as [p|e] eqn:Ec.
  - destruct (fs_read fs p) as [b|e] eqn:Er.
    + destruct (valid_utf8 b) eqn:Ev.
      * split.
        -- intros [e H]. destruct (add_file_with_text fuel o fs p b (file_type_of_path p) pj); discriminate H.
        -- intros [[e H]|(q & H & [[e K]|(b' & K & N)])]; [discriminate H|injection H as <-; congruence|].
           injection H as <-. rewrite Er in K. injection K as <-. destruct N. apply utf8_adequate, Ev.
      * split; [intros _|intros _; eexists; reflexivity]. right. exists p. split; [reflexivity|]. right. exists b. split; [exact Er|].
        intros H. apply utf8_adequate in H. congruence.
    + split; [intros _|intros _; eexists; reflexivity]. right. exists p. split; [reflexivity|]. left. eauto.
  - split; [intros _; left; eauto|intros _; eexists; reflexivity].
Qed.
Print Assumptions C80_add_exact.

(** An include of such a file that is not in the project yet does not give a diagnostic but a panic. *)
Theorem C80_include_panics : forall fs u fuel o name root text ft pj q b, finite_fs fs u -> (length u < fuel)%nat -> order_ok o ->
  fs_canon fs name = inl root -> valid_utf8 text = true -> reached pj ->
  includes fs (pj_incl pj) root text root q -> q <> root -> ~ In q (keys (pj_files pj)) -> fs_read fs q = inl b -> ~ is_text b ->
  add_file_with_text fuel o fs name text ft pj = Panic.
Proof.
  intros fs u fuel o name root text ft pj q b Hf Hl Ho Hc Hv Hp Hi Hq Hn Hr Ht.
  apply (C37_panic_exact fs u fuel o name root text ft pj Hf Hl Ho Hc Hv Hp). exists root, q. split; [left; split; [constructor|exact Hi]|].
  split; [exact Hn|]. intros H. inversion H as [|p q' _ _ _ (t & Hd)]; subst; [congruence|].
  destruct (read_valid _ _ _ Hd) as [V R]. rewrite Hr in R. injection R as ->. apply Ht, utf8_adequate, V.
Qed.
Print Assumptions C80_include_panics.
(** The claim that the include is reported is false. *)
Definition ex80 : fsys := mem_fs [(bs "/a.dts", bs "/dts-v1/; /include/ ""/b.dtsi"""); (bs "/b.dtsi", [237; 160; 128])].
Theorem C80_refuted : exists fs u fuel o name text q b, finite_fs fs u /\ (length u < fuel)%nat /\ order_ok o
  /\ fs_canon fs name = inl name /\ fs_read fs name = inl text /\ is_text text
  /\ includes fs [] name text name q /\ fs_read fs q = inl b /\ ~ is_text b
  /\ add_file fuel o fs name project_new = Panic.
Proof.
  exists ex80, [bs "/a.dts"; bs "/b.dtsi"], 3%nat, id_oracle, (bs "/a.dts"), (bs "/dts-v1/; /include/ ""/b.dtsi"""), (bs "/b.dtsi"), [237; 160; 128].
  split; [apply mem_fs_finite|]. split; [cbn; lia|]. split; [apply id_order_ok|]. split; [vm_compute; reflexivity|].
  split; [vm_compute; reflexivity|]. split; [apply utf8_adequate; vm_compute; reflexivity|].
  split. { do 4 eexists. split; [vm_compute; reflexivity|]. split; [vm_compute; reflexivity|]. split; [right; left; reflexivity|vm_compute; reflexivity]. }
  split; [vm_compute; reflexivity|]. split; [rewrite <- (utf8_adequate [237; 160; 128] : _ <-> is_text _); discriminate|]. vm_compute. reflexivity.
Qed.
Print Assumptions C80_refuted.
(** the text of a lone surrogate is refused, a text with an accent is taken *)
Example C80_case : (exists e, add_file 3 id_oracle (mem_fs [(bs "/b.dtsi", [237; 160; 128])]) (bs "/b.dtsi") project_new = Done (inl e))
  /\ exists pj, add_file 3 id_oracle (mem_fs [(bs "/b.dtsi", bs "// " ++ [195; 169])]) (bs "/b.dtsi") project_new = Done (inr pj).
Proof. split; eexists; vm_compute; reflexivity. Qed.
