(** C124 What values hold does not matter *)
From Verif Require Import Lexer LexerProofs2 LexerProofs3 LexSpec Parser Grammar Utf8 Project Visitor Server Session AnalysisProofs PropsParser CrLfProject PropsCrLf PropsGrammar Revalue RevalueProject Tests.
From Verif Require UnlabelProject.
From Coq Require Import Lia List.
Import ListNotations.

(** Names stay as they are here; PropsOtherNames.v is about other names *)
#[local] Instance no_names : name_change := false.
Lemma view_all l : map view l = l.
Proof. induction l as [|s l IH]; [reflexivity|]. cbn [map]. rewrite IH. reflexivity. Qed.

(** Other strings, bytes and numbers (of 32 bits in cells, of 64 bits in memory reservations) in a text that is read without complaint:
    the text is read without complaint, and as the same tree but for what the strings, bytes and numbers are. *)
Theorem C124_text : forall incl src t t' toks toks' f, valid_utf8 t = true -> valid_utf8 t' = true ->
  tokenize t src = Done toks -> tokenize t' src = Done toks' -> revalued Plain toks toks' -> parses incl t src f [] ->
  exists f', parses incl t' src f' [] /\ s_file f' = s_file f
    /\ (forall c, file_at f' c = file_at f c) /\ file_symbols f' = file_symbols f /\ includes_of f' = includes_of f.
Proof.
  intros incl src t t' toks toks' f V V' T T' R (s & P & D).
  destruct (rv_parse _ _ _ _ _ _ _ _ V V' T T' R P D) as (f' & s' & P' & D' & E).
  exists f'. split; [exists s'; auto|]. split; [exact E|]. split; [|split].
  - intros c. rewrite <- (at_s f' c), E. apply at_s.
  - rewrite <- (view_all (file_symbols f')), <- (view_all (file_symbols f)), <- (symbols_s f'), E. apply symbols_s.
  - apply includes_same, E.
Qed.
Print Assumptions C124_text.
(** The project has the same files with the same diagnostics, *)
Theorem C124_project : forall fs fs' fuel o name, disk_other_values fs fs' -> by_name (o_files o) -> by_path (o_an o) ->
  match add_file fuel o fs name project_new, add_file fuel o fs' name project_new with
  | Done (inr pj), Done (inr pj') =>
    m_keys (pj_files pj') = m_keys (pj_files pj) /\ forall p, get_diagnostics fs' pj' p = get_diagnostics fs pj p
  | Done (inl e), Done (inl e') => e' = e
  | Panic, Panic | NoFuel, NoFuel => True
  | _, _ => False
  end.
Proof.
  intros fs fs' fuel o name SD B Bp.
  assert (S0 : like_project project_new project_new) by (repeat split; constructor).
  pose proof (like_add fs fs' SD fuel o name _ _ B Bp S0) as G.
  destruct (add_file fuel o fs name project_new) as [[e|pj]| |], (add_file fuel o fs' name project_new) as [[e'|pj']| |];
    cbn [orel] in G; auto.
  split; [exact (alike_keys _ _ _ (proj1 G))|]. intros p. exact (like_diagnostics fs fs' SD _ _ p G).
Qed.
Print Assumptions C124_project.
(** and in every session the server publishes the same, gives the same answers and the same outlines, and crashes in the one exactly if it does in the other. *)
Definition turn_other_values (m m' : turn) : Prop :=
  disk_other_values (tn_fs m) (tn_fs m') /\ note_other_values (tn_note m) (tn_note m')
  /\ tn_orders m' = tn_orders m /\ tn_keys m' = tn_keys m
  /\ by_name (o_files (tn_orders m)) /\ by_path (o_an (tn_orders m)).
Theorem C124_session : forall fuel ms ms', Forall2 turn_other_values ms ms' ->
  match serve fuel ms server_new, serve fuel ms' server_new with
  | Done sv, Done sv' =>
    sv_sent sv' = sv_sent sv
    /\ forall fs fs' u c, disk_other_values fs fs' ->
         goto_definition fs' u c sv' = goto_definition fs u c sv /\ hover fs' u c sv' = hover fs u c sv
         /\ document_symbol fs' u sv' = document_symbol fs u sv
  | Panic, Panic | NoFuel, NoFuel => True
  | _, _ => False
  end.
Proof.
  intros fuel ms ms' H.
  assert (G : forall sv sv', like_server sv sv' -> orel like_server (serve fuel ms sv) (serve fuel ms' sv')).
  { induction H as [|m m' ms ms' (D & N & Eo & Ek & B & Bp) _ IH]; intros sv sv' S; [exact S|].
    cbn [serve]. rewrite Eo, Ek. eapply orel_bind; [|exact IH]. apply like_handle; assumption. }
  assert (S0 : like_server server_new server_new) by (split; [repeat split; constructor|reflexivity]).
  specialize (G _ _ S0). destruct (serve fuel ms server_new) as [sv| |], (serve fuel ms' server_new) as [sv'| |]; cbn [orel] in G; auto.
  split; [apply G|]. intros fs fs' u c D. destruct (like_answers fs fs' D _ _ u c G) as (G1 & G2 & G3).
  split; [exact G1|]. split; [exact G2|]. destruct (document_symbol fs' u sv'), (document_symbol fs u sv); cbn [option_map] in G3; rewrite ?view_all in G3; exact G3.
Qed.
Print Assumptions C124_session.

(** ** The conditions can be met *)
Definition text124 (r a b c w d : str) : str :=
  bs "/dts-v1/;" ++ [cNL] ++ bs "/include/ ""b.dtsi""" ++ [cNL] ++ bs "/ { l: n { compatible = """ ++ a ++ bs """; p = <" ++ b ++ bs " &l>, """ ++ c ++ bs """, &k, /bits/ "
  ++ w ++ bs " [" ++ d ++ bs "]; }; };" ++ [cNL] ++ bs "/memreserve/ " ++ r ++ bs " 8;".
Definition one124 : str := text124 (bs "10") (bs "ab") (bs "12") (bs "x") (bs "16") (bs "12").
Definition two124 : str := text124 (bs "07") (bs "cd") (bs "07") (bs "y") (bs "77") (bs "ab").
Definition disk124 (t : str) : list (fpath * str) := [(bs "/a.dts", t); (bs "/b.dtsi", bs "/ { ; };")].
Lemma clean124 : parses_cleanly one124.
Proof. intros incl src. eexists _, _. split; [vm_compute; reflexivity|reflexivity]. Qed.
Lemma seven : literal (bs "07") 7.
Proof. apply (lit_oct (bs "7")). apply (num_one 8 55 7); [left|]; lia. Qed.
Lemma other124 : other_values one124 two124.
Proof.
  split; [reflexivity|]. right. split; [exact clean124|]. split; [reflexivity|]. intros src.
  eexists _, _. split; [vm_compute; reflexivity|]. split; [vm_compute; reflexivity|].
  assert (AB : byte_text (bs "ab") [171]) by (apply (bt_pair 97 98 10 11 [] []); [right; left|..]; try (split; [lia|]); try lia; [right; left; lia|constructor]).
  repeat first [ apply rv_nil | apply rv_same | apply rv_other; [|reflexivity|reflexivity|] ];
    first [ eapply sw_string; [discriminate|reflexivity|reflexivity] | eapply sw_cell; [reflexivity|reflexivity|exact seven|lia]
      | eapply sw_reserve; [reflexivity|reflexivity|exact seven|lia] | eapply sw_width; reflexivity
      | eapply sw_bytes; [left; reflexivity|right; reflexivity|exact AB] ].
Qed.
Lemma disk124_other : disk_other_values (mem_fs (disk124 one124)) (mem_fs (disk124 two124)).
Proof.
  split; intros p.
  - cbn [mem_fs fs_canon]. unfold m_mem, disk124. cbn [m_get].
    destruct (str_eq_dec p (bs "/a.dts")); [reflexivity|]. destruct (str_eq_dec p (bs "/b.dtsi")); reflexivity.
  - unfold read_to_string. cbn [mem_fs fs_read]. unfold disk124. cbn [m_get].
    destruct (str_eq_dec p (bs "/a.dts")).
    { change (valid_utf8 one124) with true. change (valid_utf8 two124) with true. exact other124. }
    destruct (str_eq_dec p (bs "/b.dtsi")); [|reflexivity].
    change (valid_utf8 (bs "/ { ; };")) with true. split; [reflexivity|left; reflexivity].
Qed.
Example C124_case :
  let m t := mkTurn (mem_fs (disk124 t)) (NOpen (FileUri (bs "/a.dts")) t) id_oracle (fun l => l) in
  one124 <> two124 /\ Forall2 turn_other_values [m one124] [m two124]
  /\ exists sv, serve 9 [m one124] server_new = Done sv /\ map (fun p => length (snd p)) (sv_sent sv) = [2; 1]%nat
     /\ goto_definition (mem_fs (disk124 one124)) (FileUri (bs "/a.dts")) (mkPos 2 39) sv <> Done None.
Proof.
  cbv zeta. split; [discriminate|]. split.
  - constructor; [|constructor]. split; [exact disk124_other|]. split; [split; [reflexivity|exact other124]|].
    repeat split. intros R l l' H. exact H.
  - eexists. split; [vm_compute; reflexivity|]. split; [vm_compute; reflexivity|]. vm_compute. discriminate.
Qed.
(** The condition on the size is needed: a number of more than 32 bits in a cell is an error. *)
Example C124_bound : exists f s f' s',
  parse_text [] (bs "/ { p = <4294967295>; };") [] = ROk f s /\ ps_diags s = []
  /\ parse_text [] (bs "/ { p = <4294967296>; };") [] = ROk f' s' /\ ps_diags s' <> [].
Proof.
  eexists _, _, _, _. split; [vm_compute; reflexivity|]. split; [reflexivity|]. split; [vm_compute; reflexivity|]. discriminate.
Qed.
