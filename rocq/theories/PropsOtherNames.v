(** C125 What properties are called does not matter *)
From Verif Require Import Lexer LexerProofs2 LexerProofs3 LexSpec Parser Grammar Utf8 Project Visitor Server Session AnalysisProofs PropsParser CrLfProject PropsCrLf PropsGrammar Revalue RevalueProject Cli Tests.
From Verif Require UnlabelProject.
From Coq Require Import Lia List.
Import ListNotations.

#[local] Instance other_names : name_change := true.

(** [unnamed] forgets the names in an entry of an outline that is a property's, and nothing else.
    Other names of properties, none of them compatible before or after, in a text that is read without complaint (and other values as in C124):
    the text is read without complaint, and as the same tree but for these names and values. *)
Theorem C125_text : forall incl src t t' toks toks' f, valid_utf8 t = true -> valid_utf8 t' = true ->
  tokenize t src = Done toks -> tokenize t' src = Done toks' -> revalued Plain toks toks' -> parses incl t src f [] ->
  exists f', parses incl t' src f' [] /\ s_file f' = s_file f
    /\ (forall c, file_at f' c = file_at f c) /\ map unnamed (file_symbols f') = map unnamed (file_symbols f) /\ includes_of f' = includes_of f.
Proof.
  intros incl src t t' toks toks' f V V' T T' R (s & P & D).
  destruct (rv_parse _ _ _ _ _ _ _ _ V V' T T' R P D) as (f' & s' & P' & D' & E).
  exists f'. split; [exists s'; auto|]. split; [exact E|]. split; [|split].
  - intros c. rewrite <- (at_s f' c), E. apply at_s.
  - change (map view (file_symbols f') = map view (file_symbols f)). rewrite <- (symbols_s f'), E. apply symbols_s.
  - apply includes_same, E.
Qed.
Print Assumptions C125_text.
(** The project has the same files with the same diagnostics, *)
Theorem C125_project : forall fs fs' fuel o name, disk_other_values fs fs' -> by_name (o_files o) -> by_path (o_an o) ->
  match add_file fuel o fs name project_new, add_file fuel o fs' name project_new with
  | Done (inr pj), Done (inr pj') =>
    m_keys (pj_files pj') = m_keys (pj_files pj) /\ forall p, get_diagnostics fs' pj' p = get_diagnostics fs pj p
  | Done (inl e), Done (inl e') => e' = e
  | Panic, Panic | NoFuel, NoFuel => True
  | _, _ => False
  end.
Proof.
  intros fs fs' fuel o name SD B Bp.
  assert (S0 : like_project project_new project_new) by (repeat split; constructor).
  pose proof (like_add fs fs' SD fuel o name _ _ B Bp S0) as G.
  destruct (add_file fuel o fs name project_new) as [[e|pj]| |], (add_file fuel o fs' name project_new) as [[e'|pj']| |];
    cbn [orel] in G; auto.
  split; [exact (alike_keys _ _ _ (proj1 G))|]. intros p. exact (like_diagnostics fs fs' SD _ _ p G).
Qed.
Print Assumptions C125_project.
(** and in every session the server publishes the same, gives the same answers and the same outlines but for the names of the properties, and crashes in the one exactly if it does in the other. *)
Definition turn_other_names (m m' : turn) : Prop :=
  disk_other_values (tn_fs m) (tn_fs m') /\ note_other_values (tn_note m) (tn_note m')
  /\ tn_orders m' = tn_orders m /\ tn_keys m' = tn_keys m
  /\ by_name (o_files (tn_orders m)) /\ by_path (o_an (tn_orders m)).
Theorem C125_session : forall fuel ms ms', Forall2 turn_other_names ms ms' ->
  match serve fuel ms server_new, serve fuel ms' server_new with
  | Done sv, Done sv' =>
    sv_sent sv' = sv_sent sv
    /\ forall fs fs' u c, disk_other_values fs fs' ->
         goto_definition fs' u c sv' = goto_definition fs u c sv /\ hover fs' u c sv' = hover fs u c sv
         /\ option_map (map unnamed) (document_symbol fs' u sv') = option_map (map unnamed) (document_symbol fs u sv)
  | Panic, Panic | NoFuel, NoFuel => True
  | _, _ => False
  end.
Proof.
  intros fuel ms ms' H.
  assert (G : forall sv sv', like_server sv sv' -> orel like_server (serve fuel ms sv) (serve fuel ms' sv')).
  { induction H as [|m m' ms ms' (D & N & Eo & Ek & B & Bp) _ IH]; intros sv sv' S; [exact S|].
    cbn [serve]. rewrite Eo, Ek. eapply orel_bind; [|exact IH]. apply like_handle; assumption. }
  assert (S0 : like_server server_new server_new) by (split; [repeat split; constructor|reflexivity]).
  specialize (G _ _ S0). destruct (serve fuel ms server_new) as [sv| |], (serve fuel ms' server_new) as [sv'| |]; cbn [orel] in G; auto.
  split; [apply G|]. intros fs fs' u c D. exact (like_answers fs fs' D _ _ u c G).
Qed.
Print Assumptions C125_session.


(** The tool ends with the same status and prints the same reports but for the lines of the sources it quotes: *)
Definition prints (dbg : bool) (R : list (list str * list diag)) (out : str) : Prop :=
  exists pieces, Forall2 (fun r s => fmt_diagnostics dbg (fst r) default_severities (snd r) = Done s) R pieces
    /\ out = concat (map (fun s => s ++ [cNL]) pieces) ++ match R with [] => [] | _ => ok_message end.
Lemma fmt_alike dbg code code' m ds : orel (fun _ _ => True) (fmt_diagnostics dbg code m ds) (fmt_diagnostics dbg code' m ds).
Proof.
  induction ds as [|d ds IH]; [exact I|]. cbn [fmt_diagnostics]. eapply orel_bind with (R := fun _ _ => True).
  - unfold fmt_diagnostic. destruct (dbg && _); [exact I|]. destruct (caret_count dbg (dg_span d)); exact I.
  - intros x x' _. eapply orel_bind with (R := fun _ _ => True); [exact IH|]. intros y y' _. exact I.
Qed.
Lemma print_alike dbg l l' : Forall2 (entry_alike pf_like) l l' ->
  orel (fun x x' => fst x' = fst x /\ exists R R' ps ps',
      Forall2 (fun r s => fmt_diagnostics dbg (fst r) default_severities (snd r) = Done s) R ps
      /\ Forall2 (fun r s => fmt_diagnostics dbg (fst r) default_severities (snd r) = Done s) R' ps'
      /\ snd x = concat (map (fun s => s ++ [cNL]) ps) /\ snd x' = concat (map (fun s => s ++ [cNL]) ps') /\ map snd R' = map snd R
      /\ (fst x = false <-> R = []))
    (print_files dbg l) (print_files dbg l').
Proof.
  induction 1 as [|[k f] [k' f'] l l' [E S] _ IH].
  - split; [reflexivity|]. exists [], [], [], []. repeat split; constructor.
  - cbn [fst snd] in E, S. cbn [print_files].
    assert (Ed : pf_diags f' = pf_diags f) by (unfold pf_diags; rewrite (pk_pdiags _ _ S), (pk_adiags _ _ S); reflexivity).
    rewrite Ed. destruct (pf_diags f) as [|d ds]; [exact IH|].
    pose proof (fmt_alike dbg (lines (pf_text f)) (lines (pf_text f')) default_severities (d :: ds)) as G.
    destruct (fmt_diagnostics dbg (lines (pf_text f)) default_severities (d :: ds)) as [s| |] eqn:F1,
      (fmt_diagnostics dbg (lines (pf_text f')) default_severities (d :: ds)) as [s'| |] eqn:F2; cbn [orel] in G; try contradiction; try exact I.
    cbn [obind]. destruct (print_files dbg l) as [[b t]| |], (print_files dbg l') as [[b' t']| |]; cbn [orel] in IH; try contradiction; try exact I.
    cbn [obind orel fst snd]. destruct IH as (_ & R & R' & ps & ps' & A & A' & B & B' & M & _). cbn [fst snd] in B, B'.
    split; [reflexivity|]. exists ((lines (pf_text f), d :: ds) :: R), ((lines (pf_text f'), d :: ds) :: R'), (s :: ps), (s' :: ps').
    split; [constructor; [exact F1|exact A]|]. split; [constructor; [exact F2|exact A']|]. cbn [map concat].
    split; [rewrite B, <- app_assoc; reflexivity|]. split; [rewrite B', <- app_assoc; reflexivity|]. split; [rewrite M; reflexivity|].
    split; discriminate.
Qed.
Theorem C125_tool : forall dbg fuel o orders fs fs' dirs file, disk_other_values fs fs' ->
  by_name (o_files o) -> by_path (o_an o) -> by_name orders ->
  match cli_main dbg fuel o orders fs dirs file, cli_main dbg fuel o orders fs' dirs file with
  | Done (status, out), Done (status', out') =>
    status' = status /\ exists R R', prints dbg R out /\ prints dbg R' out' /\ map snd R' = map snd R
  | Panic, Panic | NoFuel, NoFuel => True
  | _, _ => False
  end.
Proof.
  intros dbg fuel o orders fs fs' dirs file SD B Bp Bo. unfold cli_main.
  assert (S0 : like_project project_new project_new) by (repeat split; constructor).
  pose proof (like_add fs fs' SD fuel o file _ _ B Bp (like_include_paths fs fs' SD dirs _ _ S0)) as G.
  destruct (add_file fuel o fs file (set_include_paths fs dirs project_new)) as [[e|pj]| |],
    (add_file fuel o fs' file (set_include_paths fs' dirs project_new)) as [[e'|pj']| |]; cbn [orel] in G; try contradiction; cbn [obind]; try exact I.
  - split; [reflexivity|]. exists [], []. repeat split; exists []; split; constructor.
  - pose proof (print_alike dbg _ _ (Bo _ _ _ (proj1 G))) as P.
    destruct (print_files dbg (orders (pj_files pj))) as [[b t]| |], (print_files dbg (orders (pj_files pj'))) as [[b' t']| |];
      cbn [orel] in P; try contradiction; cbn [obind]; try exact I.
    cbn [fst snd] in P. destruct P as (Eb & R & R' & ps & ps' & A & A' & Et & Et' & M & N). subst b'.
    assert (N' : b = false <-> R' = []) by (rewrite N; destruct R, R'; try discriminate M; split; congruence).
    destruct b; (split; [reflexivity|]); exists R, R'.
    + split; [|split; [|exact M]].
      * exists ps. split; [exact A|]. rewrite Et. destruct R; [discriminate (proj2 N eq_refl)|reflexivity].
      * exists ps'. split; [exact A'|]. rewrite Et'. destruct R'; [discriminate (proj2 N' eq_refl)|reflexivity].
    + rewrite (proj1 N eq_refl) in A, M |- *. rewrite (proj1 N' eq_refl) in A', M |- *. split; [|split; [|exact M]].
      * exists ps. split; [exact A|]. rewrite app_nil_r. exact Et.
      * exists ps'. split; [exact A'|]. rewrite app_nil_r. exact Et'.
Qed.
Print Assumptions C125_tool.

(** ** The conditions can be met *)
Definition text125 (a b : str) : str :=
  bs "/dts-v1/;" ++ [cNL] ++ bs "/include/ ""b.dtsi""" ++ [cNL] ++ bs "/ { l: n { compatible = <1>; k: " ++ a ++ bs " = <1 &l>, &k; " ++ b ++ bs "; /delete-property/ q; m { }; }; };".
Definition one125 : str := text125 (bs "reg") (bs "p").
Definition two125 : str := text125 (bs "abc") (bs "#").
Definition disk125 (t : str) : list (fpath * str) := [(bs "/a.dts", t); (bs "/b.dtsi", bs "/ { ; };")].
Lemma clean125 : parses_cleanly one125.
Proof. intros incl src. eexists _, _. split; [vm_compute; reflexivity|reflexivity]. Qed.
Ltac legal125 := split; [split; [discriminate|cbn [length]; lia]|repeat (apply Forall_cons; [first [left; vm_compute; intuition discriminate|right; right; cbn [In]; tauto]|]); apply Forall_nil].
Lemma other125 : other_values one125 two125.
Proof.
  split; [reflexivity|]. right. split; [exact clean125|]. split; [reflexivity|]. intros src.
  eexists _, _. split; [vm_compute; reflexivity|]. split; [vm_compute; reflexivity|].
  repeat first [ apply rv_nil | apply rv_same | eapply rv_name; [reflexivity|reflexivity|reflexivity|discriminate|discriminate| |first [left; reflexivity|right; reflexivity]|reflexivity|reflexivity|] ].
  all: legal125.
Qed.
Lemma disk125_other : disk_other_values (mem_fs (disk125 one125)) (mem_fs (disk125 two125)).
Proof.
  split; intros p.
  - cbn [mem_fs fs_canon]. unfold m_mem, disk125. cbn [m_get].
    destruct (str_eq_dec p (bs "/a.dts")); [reflexivity|]. destruct (str_eq_dec p (bs "/b.dtsi")); reflexivity.
  - unfold read_to_string. cbn [mem_fs fs_read]. unfold disk125. cbn [m_get].
    destruct (str_eq_dec p (bs "/a.dts")).
    { change (valid_utf8 one125) with true. change (valid_utf8 two125) with true. exact other125. }
    destruct (str_eq_dec p (bs "/b.dtsi")); [|reflexivity].
    change (valid_utf8 (bs "/ { ; };")) with true. split; [reflexivity|left; reflexivity].
Qed.
Example C125_tool_case : exists out out', out <> out'
  /\ cli_main true 9 id_oracle (fun l => l) (mem_fs (disk125 one125)) [] (bs "/a.dts") = Done (0, out)
  /\ cli_main true 9 id_oracle (fun l => l) (mem_fs (disk125 two125)) [] (bs "/a.dts") = Done (0, out').
Proof. eexists _, _. split; [|split; vm_compute; reflexivity]. vm_compute. discriminate. Qed.
Example C125_case :
  let m t := mkTurn (mem_fs (disk125 t)) (NOpen (FileUri (bs "/a.dts")) t) id_oracle (fun l => l) in
  one125 <> two125 /\ Forall2 turn_other_names [m one125] [m two125]
  /\ exists sv sv', serve 9 [m one125] server_new = Done sv /\ serve 9 [m two125] server_new = Done sv'
     /\ map (fun p => length (snd p)) (sv_sent sv) = [2; 1]%nat
     /\ document_symbol (mem_fs (disk125 one125)) (FileUri (bs "/a.dts")) sv <> document_symbol (mem_fs (disk125 two125)) (FileUri (bs "/a.dts")) sv'.
Proof.
  cbv zeta. split; [discriminate|]. split.
  - constructor; [|constructor]. split; [exact disk125_other|]. split; [split; [reflexivity|exact other125]|].
    repeat split. intros R l l' H. exact H.
  - eexists _, _. split; [vm_compute; reflexivity|]. split; [vm_compute; reflexivity|]. split; [vm_compute; reflexivity|]. vm_compute. discriminate.
Qed.
(** The name compatible is an exception: its values have to be strings. *)
Example C125_compatible : 
  let d a := mem_fs [(bs "/a.dts", bs "/dts-v1/; / { " ++ a ++ bs " = <1>; };")] in
  exists pj pj', add_file 9 id_oracle (d (bs "incompatib")) (bs "/a.dts") project_new = Done (inr pj)
  /\ add_file 9 id_oracle (d (bs "compatible")) (bs "/a.dts") project_new = Done (inr pj')
  /\ get_diagnostics (d (bs "compatible")) pj' (bs "/a.dts") <> get_diagnostics (d (bs "incompatib")) pj (bs "/a.dts").
Proof.
  cbv zeta. eexists _, _. split; [vm_compute; reflexivity|]. split; [vm_compute; reflexivity|]. vm_compute. discriminate.
Qed.
