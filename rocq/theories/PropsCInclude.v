(** C122 A line #include "file" brings in the file *)
From Verif Require Import Lexer LexSpec Parser Utf8 Project Visitor Server Session PropsParser CrLf CrLfProject PropsCrLf PropsGrammar PropsConcat LexGrow PropsStable CInclude Tests ProjectProofs2.
From Coq Require Import Lia List.
Import ListNotations.

(** ** What such a line does: nothing *)
(** Pieces of a text, some of which lose their #include elements: no syntax errors, nothing left open at the end of a piece, and as many lines as before *)
Definition piece (x x' : str) : Prop :=
  valid_utf8 x = true /\ valid_utf8 x' = true /\ ends_settled x = true /\ ends_settled x' = true /\ count_nl x' = count_nl x
  /\ forall incl src, exists f, parses incl x src f [] /\ parses incl x' src (plain f) [].
Fixpoint glue (xs : list str) : str := match xs with [] => [] | x :: r => x ++ [cNL] ++ glue r end.

Lemma move_c g p : is_c_include (move_primary g p) = is_c_include p.
Proof. destruct p as [[]| | |]; reflexivity. Qed.
Lemma plain_move g l : filter (fun p => negb (is_c_include p)) (map (move_primary g) l) = map (move_primary g) (filter (fun p => negb (is_c_include p)) l).
Proof.
  induction l as [|p l IH]; [reflexivity|]. cbn [map filter]. rewrite move_c. destruct (is_c_include p); cbn [negb map]; rewrite IH; reflexivity.
Qed.
Lemma glue_valid xs : Forall (fun x => valid_utf8 x = true) xs -> valid_utf8 (glue xs) = true.
Proof. induction 1 as [|x xs V _ IH]; [reflexivity|]. cbn [glue]. apply valid_lines; assumption. Qed.
Lemma glue_parses ps ps' : Forall2 piece ps ps' -> forall incl src, exists f, parses incl (glue ps) src f [] /\ parses incl (glue ps') src (plain f) [].
Proof.
  induction 1 as [|x x' ps ps' (V & V' & S & S' & N & P) H IH]; intros incl src.
  - exists (mkFile [] src). split; (eexists; split; [vm_compute; reflexivity|reflexivity]).
  - destruct (P incl src) as (f & F & F'), (IH incl src) as (g & G & G').
    assert (Vs : valid_utf8 (glue ps) = true /\ valid_utf8 (glue ps') = true).
    { clear -H. split; apply glue_valid; induction H as [|x x' ps ps' (V & V' & _) _ IH]; constructor; assumption. }
    cbn [glue]. eexists. split; [exact (C78_settled incl src x (glue ps) f g V (proj1 Vs) S F G)|].
    pose proof (C78_settled incl src x' (glue ps') (plain f) (plain g) V' (proj2 Vs) S' F' G') as K. rewrite N in K.
    unfold plain in *. cbn [fl_elements fl_source] in *. rewrite filter_app, plain_move. exact K.
Qed.
(** Such lines can be written over: *)
Theorem C122_text : forall ps ps', Forall2 piece ps ps' -> without_c (glue ps) (glue ps').
Proof.
  intros ps ps' H incl src. destruct (glue_parses _ _ H incl src) as (f & (s & E & D) & (s' & E' & D')). rewrite E, E'. split; [reflexivity|congruence].
Qed.
Print Assumptions C122_text.
(** the project has the same files with the same diagnostics, *)
Theorem C122_project : forall fs fs' fuel o name, disk_without_c fs fs' -> by_name (o_files o) ->
  match add_file fuel o fs name project_new, add_file fuel o fs' name project_new with
  | Done (inr pj), Done (inr pj') =>
    m_keys (pj_files pj') = m_keys (pj_files pj) /\ forall p, get_diagnostics fs' pj' p = get_diagnostics fs pj p
  | Done (inl e), Done (inl e') => e' = e
  | Panic, Panic | NoFuel, NoFuel => True
  | _, _ => False
  end.
Proof.
  intros fs fs' fuel o name SD B.
  assert (S0 : like_project project_new project_new) by (repeat split; constructor).
  pose proof (like_add fs fs' SD fuel o name _ _ B S0) as G.
  destruct (add_file fuel o fs name project_new) as [[e|pj]| |], (add_file fuel o fs' name project_new) as [[e'|pj']| |];
    cbn [orel] in G; auto.
  split; [exact (alike_keys _ _ _ (proj1 G))|]. intros p. exact (like_diagnostics fs fs' SD _ _ p G).
Qed.
Print Assumptions C122_project.
(** and in every session the server publishes the same and gives the same answers. *)
Definition turn_without_c (m m' : turn) : Prop :=
  disk_without_c (tn_fs m) (tn_fs m') /\ note_without (tn_note m) (tn_note m')
  /\ tn_orders m' = tn_orders m /\ tn_keys m' = tn_keys m /\ by_name (o_files (tn_orders m)).
Theorem C122_session : forall fuel ms ms', Forall2 turn_without_c ms ms' ->
  match serve fuel ms server_new, serve fuel ms' server_new with
  | Done sv, Done sv' =>
    sv_sent sv' = sv_sent sv
    /\ forall fs fs' u c, disk_without_c fs fs' ->
         goto_definition fs' u c sv' = goto_definition fs u c sv
         /\ hover fs' u c sv' = hover fs u c sv
         /\ document_symbol fs' u sv' = document_symbol fs u sv
  | Panic, Panic | NoFuel, NoFuel => True
  | _, _ => False
  end.
Proof.
  intros fuel ms ms' H.
  assert (G : forall sv sv', like_server sv sv' -> orel like_server (serve fuel ms sv) (serve fuel ms' sv')).
  { induction H as [|m m' ms ms' (D & N & Eo & Ek & B) _ IH]; intros sv sv' S; [exact S|].
    cbn [serve]. rewrite Eo, Ek. eapply orel_bind; [|exact IH]. apply like_handle; assumption. }
  assert (S0 : like_server server_new server_new) by (split; [repeat split; constructor|reflexivity]).
  specialize (G _ _ S0). destruct (serve fuel ms server_new), (serve fuel ms' server_new); cbn [orel] in G; auto.
  split; [apply G|]. intros fs fs' u c D. exact (like_answers fs fs' D _ _ u c G).
Qed.
Print Assumptions C122_session.

(** ** So the claim is false: what /include/ makes resolve does not with #include, and the file is not in the project. *)
Definition lib122 : str := bs "/ { l: n { }; };".
Theorem C122_refuted : exists main main' pj pj',
  let fs t := mem_fs [(bs "/a.dts", t); (bs "/b.dtsi", lib122)] in
  main = bs "/dts-v1/;" ++ [cNL] ++ bs "/include/ ""b.dtsi""" ++ [cNL] ++ bs "&l { };"
  /\ main' = bs "/dts-v1/;" ++ [cNL] ++ bs "#include ""b.dtsi""" ++ [cNL] ++ bs "&l { };"
  /\ add_file 9 id_oracle (fs main) (bs "/a.dts") project_new = Done (inr pj)
  /\ add_file 9 id_oracle (fs main') (bs "/a.dts") project_new = Done (inr pj')
  /\ get_diagnostics (fs main) pj (bs "/a.dts") = [] /\ In (bs "/b.dtsi") (m_keys (pj_files pj))
  /\ map dg_kind (get_diagnostics (fs main') pj' (bs "/a.dts")) = [UnresolvedReference] /\ ~ In (bs "/b.dtsi") (m_keys (pj_files pj')).
Proof.
  eexists _, _, _, _. cbv zeta. split; [reflexivity|]. split; [reflexivity|]. split; [vm_compute; reflexivity|]. split; [vm_compute; reflexivity|].
  split; [vm_compute; reflexivity|]. split; [vm_compute; auto|]. split; [vm_compute; reflexivity|]. vm_compute. intuition discriminate.
Qed.
Print Assumptions C122_refuted.
(** with pointed brackets it is an error at the bracket *)
Theorem C122_brackets_refuted : exists t d s, t = bs "/dts-v1/;" ++ [cNL] ++ bs "#include <b.dtsi>" ++ [cNL] ++ bs "/ { };"
  /\ parse_text [] t (bs "/a.dts") = RErr d s /\ dg_kind d = Expected /\ dg_span d = mkSpan (mkPos 1 9) (mkPos 1 10).
Proof. eexists _, _, _. split; [reflexivity|]. split; [vm_compute; reflexivity|]. split; reflexivity. Qed.
Print Assumptions C122_brackets_refuted.

(** ** The conditions can be met *)
Definition line122 : str := bs "#include ""b.dtsi"" // the library".
Definition pieces122 : list str := [bs "/dts-v1/;"; line122; bs "/ { m { }; };" ++ [cNL] ++ bs "&l { };"].
Definition pieces122' : list str := [bs "/dts-v1/;"; []; bs "/ { m { }; };" ++ [cNL] ++ bs "&l { };"].
Lemma piece122 : Forall2 piece pieces122 pieces122'.
Proof.
  repeat constructor; try reflexivity; intros incl src; (eexists; split; (eexists; split; [vm_compute; reflexivity|reflexivity])).
Qed.
Lemma disk122_without : disk_without_c (mem_fs [(bs "/a.dts", glue pieces122)]) (mem_fs [(bs "/a.dts", glue pieces122')]).
Proof.
  split; intros p.
  - cbn [mem_fs fs_canon]. unfold m_mem. cbn [m_get]. destruct (str_eq_dec p (bs "/a.dts")); reflexivity.
  - unfold read_to_string. cbn [mem_fs fs_read m_get]. destruct (str_eq_dec p (bs "/a.dts")); [|reflexivity].
    change (valid_utf8 (glue pieces122)) with true. change (valid_utf8 (glue pieces122')) with true. exact (C122_text _ _ piece122).
Qed.
Example C122_case :
  let m t := mkTurn (mem_fs [(bs "/a.dts", t)]) (NOpen (FileUri (bs "/a.dts")) t) id_oracle (fun l => l) in
  Forall2 turn_without_c [m (glue pieces122)] [m (glue pieces122')]
  /\ exists sv, serve 9 [m (glue pieces122)] server_new = Done sv /\ map (fun p => length (snd p)) (sv_sent sv) = [1]%nat.
Proof.
  cbv zeta. split.
  - constructor; [|constructor]. split; [exact disk122_without|]. split; [split; [reflexivity|exact (C122_text _ _ piece122)]|].
    repeat split. intros R l l' H. exact H.
  - eexists. split; [vm_compute; reflexivity|]. reflexivity.
Qed.
