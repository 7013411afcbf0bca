(** C119 Windows line ends do not matter *)
From Verif Require Import Parser Utf8 Project Cli Server Session PropsParser CrLf CrLfScan CrLfParser CrLfProject CrLfServer Tests ProjectProofs2.
From Coq Require Import Lia List.
Import ListNotations.

(** ** Line ends and UTF-8 *)
Lemma crlf_head b l t' : crlf (b :: l) t' -> b <> cNL -> exists l', t' = b :: l' /\ crlf l l'.
Proof. intros H N. inversion H; subst; [eauto|contradiction]. Qed.

Lemma two_no_nl b c : utf8_two b c = true -> c <> cNL.
Proof. intros H ->. unfold utf8_two in H. apply andb_prop in H. discriminate (proj2 H). Qed.
Lemma three_no_nl b c d : utf8_three b c d = true -> c <> cNL /\ d <> cNL.
Proof.
  intros H. split; intros ->; unfold utf8_three, is_cont, in_rng in H.
  - cbn in H. rewrite ?andb_false_r in H. discriminate.
  - cbn in H. rewrite ?andb_false_r in H. discriminate.
Qed.
Lemma four_no_nl b c d e : utf8_four b c d e = true -> c <> cNL /\ d <> cNL /\ e <> cNL.
Proof.
  intros H. split; [|split]; intros ->; unfold utf8_four, is_cont, in_rng in H; cbn in H;
    rewrite ?andb_false_r in H; cbn in H; discriminate.
Qed.

Lemma valid_crlf t t' : crlf t t' -> valid_utf8 t = true -> valid_utf8 t' = true.
Proof.
  assert (G : forall n t t', (length t < n)%nat -> crlf t t' -> valid_utf8 t = true -> valid_utf8 t' = true).
  2:{ apply (G (S (length t))). lia. }
  clear. induction n as [|n IH]; intros t t' L H V; [lia|].
  destruct t as [|b l]; [inversion H; reflexivity|]. cbn [length] in L.
  destruct (valid_inv _ _ V) as [(B & V1) | [(b1 & r & B & -> & T & V1) | [(b1 & b2 & r & B & -> & T2 & T & V1)
    | (b1 & b2 & b3 & r & B & -> & T2 & T3 & T & V1)]]].
  - inversion H; subst.
    + rewrite valid_one by assumption. apply (IH l); [lia|assumption|assumption].
    + rewrite !valid_one by reflexivity. apply (IH l); [lia|assumption|assumption].
  - apply crlf_head in H; [|lia]. destruct H as (l1 & -> & H).
    apply crlf_head in H; [|exact (two_no_nl _ _ T)]. destruct H as (l2 & -> & H).
    rewrite valid_two by assumption. apply (IH r); [cbn in L; lia|assumption|assumption].
  - destruct (three_no_nl _ _ _ T) as [N1 N2].
    apply crlf_head in H; [|lia]. destruct H as (l1 & -> & H).
    apply crlf_head in H; [|exact N1]. destruct H as (l2 & -> & H).
    apply crlf_head in H; [|exact N2]. destruct H as (l3 & -> & H).
    rewrite valid_three by assumption. apply (IH r); [cbn in L; lia|assumption|assumption].
  - destruct (four_no_nl _ _ _ _ T) as (N1 & N2 & N3).
    apply crlf_head in H; [|lia]. destruct H as (l1 & -> & H).
    apply crlf_head in H; [|exact N1]. destruct H as (l2 & -> & H).
    apply crlf_head in H; [|exact N2]. destruct H as (l3 & -> & H).
    apply crlf_head in H; [|exact N3]. destruct H as (l4 & -> & H).
    rewrite valid_four by assumption. apply (IH r); [cbn in L; lia|assumption|assumption].
Qed.

(** every line feed turned into carriage return and line feed *)
Definition windows (t : list N) : list N := flat_map (fun c => if c =? 10 then [13; 10] else [c]) t.
Lemma windows_crlf t : ~ In 13 t -> crlf t (windows t).
Proof.
  induction t as [|c t IH]; intros H; [constructor|]. cbn [windows flat_map].
  assert (H2 : crlf t (windows t)) by (apply IH; intros I; apply H; right; exact I).
  destruct (N.eqb_spec c 10) as [->|N]; cbn [app].
  - constructor. exact H2.
  - constructor; [|exact H2]. intros ->. apply H. left. reflexivity.
Qed.

(** ** C119 *)
(** The parser. For every text none of whose strings, path references and directives goes over a line end, whichever of its line feeds get a carriage return:
    the same tree, and the same diagnostics in the same order; a diagnostic that says what was expected may be one column further to the right, every other one
    is at the same place. *)
Definition at_or_right : diag -> diag -> Prop := near_diag True.
Theorem C119_parse_partial : forall t t' incl src, valid_utf8 t = true -> crlf t t' -> unbroken t = true ->
  match parse_text incl t src, parse_text incl t' src with
  | ROk f s, ROk f' s' => f' = f /\ Forall2 at_or_right (ps_diags s) (ps_diags s')
  | RErr d s, RErr d' s' => at_or_right d d' /\ Forall2 at_or_right (ps_diags s) (ps_diags s')
  | _, _ => False
  end.
Proof.
  intros t t' incl src V C U.
  pose proof (same_parse True t (unbroken_one_line _ U) (or_introl I) t' incl src C) as S.
  pose proof (C09_parse_total incl t src V) as T. pose proof (C09_parse_total incl t' src (valid_crlf _ _ C V)) as T'.
  destruct T as [(f & s & E) | (d & s & E)]; rewrite E in *;
  destruct T' as [(f' & s' & E') | (d' & s' & E')]; rewrite E' in *; cbn [rsame] in S; try contradiction.
  - destruct S as [<- S]. split; [reflexivity|exact (q_diags _ _ _ _ S)].
  - destruct S as [D S]. split; [exact D|exact (q_diags _ _ _ _ S)].
Qed.
Print Assumptions C119_parse_partial.

(** If moreover there is no line comment, or no syntax error, every diagnostic is at the same place. *)
Theorem C119_exact_partial : forall t t' incl src, valid_utf8 t = true -> fine t t' ->
  match parse_text incl t src, parse_text incl t' src with
  | ROk f s, ROk f' s' => f' = f /\ ps_diags s' = ps_diags s
  | RErr d _, RErr d' _ => d' = d
  | _, _ => False
  end.
Proof. intros t t' incl src V F. apply (fine_parse t t' incl src F V). exact (valid_crlf _ _ (proj1 F) V). Qed.
Print Assumptions C119_exact_partial.

(** The tool prints the same bytes and ends with the same status on two disks that differ in the line ends of such files only, whatever file and directories it
    is given; the order of its hash maps may depend on the names of the files, as long as it is the same for both. *)
Theorem C119_tool_partial : forall dbg fuel o orders fs fs' incl file,
  same_disk fs fs' -> by_name (o_files o) -> by_name orders ->
  cli_main dbg fuel o orders fs' incl file = cli_main dbg fuel o orders fs incl file.
Proof. intros dbg fuel o orders fs fs' incl file H B B2. exact (same_cli fs fs' H dbg fuel o orders incl file B B2). Qed.
Print Assumptions C119_tool_partial.

(** The language server: a message with the disk and the orders it meets *)
Record turn := mkTurn { tn_fs : fsys; tn_note : note; tn_orders : oracle; tn_keys : list fpath -> list fpath }.
Fixpoint serve (fuel : nat) (ms : list turn) (sv : server) : outcome server :=
  match ms with
  | [] => Done sv
  | m :: r => obind (handle fuel (tn_orders m) (tn_keys m) (tn_fs m) (tn_note m) sv) (serve fuel r)
  end.
(** the same turn with other line ends, on the disk and in the texts the editor sends *)
Definition turn_alike (m m' : turn) : Prop :=
  same_disk (tn_fs m) (tn_fs m') /\ note_alike (tn_note m) (tn_note m') /\ note_valid (tn_note m)
  /\ tn_orders m' = tn_orders m /\ tn_keys m' = tn_keys m /\ by_name (o_files (tn_orders m)).

Lemma alike_valid n n' : note_alike n n' -> note_valid n -> note_valid n'.
Proof.
  destruct n as [d|d|u t|u ts|u], n' as [d'|d'|u' t'|u' ts'|u']; cbn; try contradiction; auto.
  - intros [_ [C _]]. apply valid_crlf, C.
  - intros [_ F]. induction F as [|t t' ts ts' [C _] _ IH]; intros V; [constructor|].
    inversion V; subst. constructor; [exact (valid_crlf _ _ C ltac:(assumption))|apply IH; assumption].
Qed.

(** In every session: the same is published, in the same order, and every request afterwards gets the same answer; the server crashes in the one exactly if it
    does in the other. *)
Theorem C119_session_partial : forall fuel ms ms', Forall2 turn_alike ms ms' ->
  match serve fuel ms server_new, serve fuel ms' server_new with
  | Done sv, Done sv' =>
    sv_sent sv' = sv_sent sv
    /\ forall fs fs' u c, same_disk fs fs' ->
         goto_definition fs' u c sv' = goto_definition fs u c sv
         /\ hover fs' u c sv' = hover fs u c sv
         /\ document_symbol fs' u sv' = document_symbol fs u sv
  | Panic, Panic | NoFuel, NoFuel => True
  | _, _ => False
  end.
Proof.
  intros fuel ms ms' H.
  assert (G : forall sv sv', same_server sv sv' -> orel same_server (serve fuel ms sv) (serve fuel ms' sv')).
  { induction H as [|m m' ms ms' (D & N & V & Eo & Ek & B) _ IH]; intros sv sv' S; [exact S|].
    cbn [serve]. rewrite Eo, Ek. eapply orel_bind; [|exact IH].
    apply same_handle; try assumption. exact (alike_valid _ _ N V). }
  assert (S0 : same_server server_new server_new) by (split; [repeat split; constructor|reflexivity]).
  specialize (G _ _ S0). destruct (serve fuel ms server_new), (serve fuel ms' server_new); cbn [orel] in G; auto.
  split; [apply G|]. intros fs fs' u c D. exact (same_answers fs fs' D _ _ u c G).
Qed.
Print Assumptions C119_session_partial.

(** Without the conditions it is false: where a semicolon is missing before a line comment, the message is at the end of the line, and the carriage return
    counts as a column there; *)
Definition text119 : str := bs "/dts-v1/ // one" ++ [10] ++ bs "/ { };" ++ [10].
Theorem C119_refuted : exists fs fs' : fsys,
  (forall p, fs_canon fs' p = fs_canon fs p)
  /\ (forall p, match read_to_string fs p, read_to_string fs' p with
                | inl t, inl t' => crlf t t' /\ unbroken t = true | inr e, inr e' => e' = e | _, _ => False end)
  /\ cli_main true 9 id_oracle (fun l => l) fs' [] (bs "/a.dts") <> cli_main true 9 id_oracle (fun l => l) fs [] (bs "/a.dts").
Proof.
  exists (mem_fs [(bs "/a.dts", text119)]), (mem_fs [(bs "/a.dts", windows text119)]). split; [|split].
  - intros p. cbn [mem_fs fs_canon]. unfold m_mem. cbn [m_get]. destruct (str_eq_dec p (bs "/a.dts")); reflexivity.
  - intros p. unfold read_to_string. cbn [mem_fs fs_read m_get]. destruct (str_eq_dec p (bs "/a.dts")); [|reflexivity].
    change (valid_utf8 text119) with true. change (valid_utf8 (windows text119)) with true. cbn iota.
    split; [|reflexivity]. apply windows_crlf. vm_compute. intuition discriminate.
  - vm_compute. discriminate.
Qed.
Print Assumptions C119_refuted.
(** and a string that goes over a line end is another string. *)
Definition broken119 : str := bs "/ { a = ""x" ++ [10] ++ bs "y""; };".
Theorem C119_broken_refuted : exists t t', valid_utf8 t = true /\ crlf t t'
  /\ exists f s f' s', parse_text [] t [] = ROk f s /\ parse_text [] t' [] = ROk f' s' /\ ps_diags s = [] /\ ps_diags s' = [] /\ f' <> f.
Proof.
  exists broken119, (windows broken119). split; [reflexivity|]. split; [apply windows_crlf; vm_compute; intuition discriminate|].
  eexists _, _, _, _. split; [vm_compute; reflexivity|]. split; [vm_compute; reflexivity|].
  split; [reflexivity|]. split; [reflexivity|]. discriminate.
Qed.
Print Assumptions C119_broken_refuted.

(** ** The conditions can be met: two files with comments of both kinds, a string, a path reference and an unresolved reference; all line ends changed *)
Definition main119 : str :=
  bs "// SPDX" ++ [10] ++ bs "/dts-v1/;" ++ [10] ++ bs "/include/ ""b.dtsi""" ++ [10] ++ bs "/* two" ++ [10] ++ bs "lines */" ++ [10]
  ++ bs "/ { a = ""s\""//"", <&{/n} &gone>; // end" ++ [10] ++ bs "};" ++ [10].
Definition incl119 : str := bs "/ {" ++ [10; 10] ++ bs "  n { }" ++ [10] ++ bs "};" ++ [10].
Definition disk119 : list (fpath * str) := [(bs "/a.dts", main119); (bs "/b.dtsi", incl119)].
Definition disk119w : list (fpath * str) := [(bs "/a.dts", windows main119); (bs "/b.dtsi", windows incl119)].

Lemma main119_clean : parses_cleanly main119.
Proof. intros incl src. eexists _, _. split; [vm_compute; reflexivity|reflexivity]. Qed.
Lemma main119_fine : fine main119 (windows main119).
Proof.
  split; [apply windows_crlf; vm_compute; intuition discriminate|]. split; [reflexivity|]. right. exact main119_clean.
Qed.
Lemma incl119_fine : fine incl119 (windows incl119).
Proof.
  split; [apply windows_crlf; vm_compute; intuition discriminate|]. split; [reflexivity|]. left. reflexivity.
Qed.
Lemma disk119_same : same_disk (mem_fs disk119) (mem_fs disk119w).
Proof.
  split; intros p.
  - cbn [mem_fs fs_canon]. unfold m_mem, disk119, disk119w. cbn [m_get].
    destruct (str_eq_dec p (bs "/a.dts")); [reflexivity|]. destruct (str_eq_dec p (bs "/b.dtsi")); reflexivity.
  - unfold read_to_string. cbn [mem_fs fs_read]. unfold disk119, disk119w. cbn [m_get].
    destruct (str_eq_dec p (bs "/a.dts")).
    { change (valid_utf8 main119) with true. change (valid_utf8 (windows main119)) with true. exact main119_fine. }
    destruct (str_eq_dec p (bs "/b.dtsi")); [|reflexivity].
    change (valid_utf8 incl119) with true. change (valid_utf8 (windows incl119)) with true. exact incl119_fine.
Qed.
Example C119_case : same_disk (mem_fs disk119) (mem_fs disk119w) /\ by_name (o_files id_oracle)
  /\ exists out, cli_main true 9 id_oracle (fun l => l) (mem_fs disk119) [] (bs "/a.dts") = Done (0, out)
       /\ (100 < length out)%nat.
Proof.
  split; [exact disk119_same|]. split; [intros R l l' H; exact H|].
  eexists. split; [vm_compute; reflexivity|]. cbn. lia.
Qed.
Example C119_session_case :
  let m d t := mkTurn (mem_fs d) (NOpen (FileUri (bs "/a.dts")) t) id_oracle (fun l => l) in
  Forall2 turn_alike [m disk119 main119] [m disk119w (windows main119)]
  /\ exists sv, serve 9 [m disk119 main119] server_new = Done sv /\ map (fun p => length (snd p)) (sv_sent sv) = [2; 1]%nat.
Proof.
  cbv zeta. split.
  - constructor; [|constructor]. split; [exact disk119_same|]. split; [split; [reflexivity|exact main119_fine]|].
    repeat split. intros R l l' H. exact H.
  - eexists. split; [vm_compute; reflexivity|]. reflexivity.
Qed.
