(** The command line tool and the printer of diagnostics: C42, C43, C61 *)
From Verif Require Import Cli Tests Grammar NameProofs NumProofs LexSpec ReaderProofs PropsProject.
From Coq Require Import Permutation.

(** ** C42: the exit status *)
(** some file of the project has a diagnostic *)
Definition found (pj : project) : Prop := exists p f, In (p, f) (pj_files pj) /\ pf_diags f <> [].

Lemma print_files_none dbg l : (forall p f, In (p, f) l -> pf_diags f = []) -> print_files dbg l = Done (false, []).
Proof.
  induction l as [|[p f] l IH]; intros H; [reflexivity|]. cbn [print_files]. rewrite (H p f) by (left; reflexivity).
  apply IH. intros q g Hg. apply (H q g). right. exact Hg.
Qed.
Lemma print_files_some dbg l errs out : print_files dbg l = Done (errs, out) ->
  (exists p f, In (p, f) l /\ pf_diags f <> []) -> errs = true.
Proof.
  revert errs out. induction l as [|[p f] l IH]; intros errs out E (q & g & Hg & Hd); [destruct Hg|].
  cbn [print_files] in E. destruct (pf_diags f) as [|d ds] eqn:Ed.
  - eapply IH; [exact E|]. destruct Hg as [Hg|Hg]; [injection Hg as <- <-; congruence|]. eauto.
  - destruct (fmt_diagnostics dbg _ _ _) as [s| |]; try discriminate. cbn [obind] in E.
    destruct (print_files dbg l) as [[e t]| |]; try discriminate. cbn [obind] in E. congruence.
Qed.

Lemma found_dec (l : list (fpath * pfile)) :
  (exists p f, In (p, f) l /\ pf_diags f <> []) \/ (forall p f, In (p, f) l -> pf_diags f = []).
Proof.
  induction l as [|[p f] l IH]; [right; intros p f []|]. destruct (pf_diags f) as [|d ds] eqn:E.
  - destruct IH as [(q & g & H1 & H2)|IH]; [left; exists q, g; split; [right; exact H1|exact H2]|].
    right. intros q g [H|H]; [injection H as <- <-; exact E|eauto].
  - left. exists p, f. split; [left; reflexivity|]. rewrite E. discriminate.
Qed.

(** The exact behaviour: the status and the message are those of the opposite case. *)
Theorem C42_inverted : forall dbg fuel o ofiles fs includes file status out,
  (forall l, Permutation (ofiles l) l) ->
  cli_main dbg fuel o ofiles fs includes file = Done (status, out) ->
  (exists e, add_file fuel o fs file (set_include_paths fs includes project_new) = Done (inl e) /\ status = 1 /\ out = [])
  \/ exists pj, add_file fuel o fs file (set_include_paths fs includes project_new) = Done (inr pj)
       /\ (found pj -> status = 0 /\ exists pre, out = pre ++ bs "OK; No issues found" ++ [cNL])
       /\ (~ found pj -> status = 1 /\ out = []).
Proof.
  intros dbg fuel o ofiles fs includes file status out Ho E. unfold cli_main in E.
  destruct (add_file fuel o fs file (set_include_paths fs includes project_new)) as [[e|pj]| |]; try discriminate;
    cbn [obind] in E.
  - injection E as <- <-. left. eauto.
  - right. exists pj. split; [reflexivity|]. split.
    + intros (p & f & H1 & H2).
      destruct (print_files dbg (ofiles (pj_files pj))) as [[errs s]| |] eqn:Ep; try discriminate. cbn [obind] in E.
      assert (errs = true) as ->.
      { eapply print_files_some; [exact Ep|]. exists p, f. split; [|exact H2].
        eapply Permutation_in; [apply Permutation_sym, Ho|exact H1]. }
      injection E as <- <-. split; [reflexivity|]. exists s. reflexivity.
    + intros H. rewrite print_files_none in E; [cbn [obind] in E; injection E as <- <-; auto|].
      intros p f Hp. destruct (pf_diags f) as [|d ds] eqn:Ed; [reflexivity|]. exfalso. apply H. exists p, f. split; [|congruence].
      eapply Permutation_in; [apply Ho|exact Hp].
Qed.
Print Assumptions C42_inverted.

Definition cli (l : list (fpath * str)) : outcome (N * str) := cli_main true 10 id_oracle (fun l => l) (mem_fs l) [] (bs "/a.dts").
Definition loads (l : list (fpath * str)) : option project :=
  match add_file 10 id_oracle (mem_fs l) (bs "/a.dts") (set_include_paths (mem_fs l) [] project_new) with
  | Done (inr pj) => Some pj
  | _ => None
  end.
Definition foundb (pj : project) : bool := existsb (fun kv => match pf_diags (snd kv) with [] => false | _ => true end) (pj_files pj).
Lemma foundb_spec pj : found pj <-> foundb pj = true.
Proof.
  unfold foundb. rewrite existsb_exists. split.
  - intros (p & f & H1 & H2). exists (p, f). split; [exact H1|]. cbn. destruct (pf_diags f); congruence.
  - intros ([p f] & H1 & H2). exists p, f. split; [exact H1|]. cbn in H2. destruct (pf_diags f); congruence.
Qed.

(** the claim fails in both directions *)
Theorem C42_refuted :
  (exists l pj, loads l = Some pj /\ ~ found pj /\ cli l = Done (1, []))
  /\ (exists l pj pre, loads l = Some pj /\ found pj /\ cli l = Done (0, pre ++ bs "OK; No issues found" ++ [cNL])).
Proof.
  split.
  - exists [(bs "/a.dts", bs "/dts-v1/; / { };")], (match loads [(bs "/a.dts", bs "/dts-v1/; / { };")] with Some pj => pj | None => project_new end).
    split; [vm_compute; reflexivity|]. split; [|vm_compute; reflexivity].
    intros H. apply foundb_spec in H. revert H. vm_compute. discriminate.
  - exists [(bs "/a.dts", bs "/dts-v1/; / { }")], (match loads [(bs "/a.dts", bs "/dts-v1/; / { }")] with Some pj => pj | None => project_new end).
    eexists. split; [vm_compute; reflexivity|]. split; [apply foundb_spec; vm_compute; reflexivity|].
    instantiate (1 := bs "error --> /a.dts:1:16
  |
1 | /dts-v1/; / { }
  |                ^ Expected ';'


"). vm_compute. reflexivity.
Qed.
Print Assumptions C42_refuted.

(** ** C61: every diagnostic of every loaded file is printed, once *)
Definition block (dbg : bool) (f : pfile) (d : diag) (s : str) : Prop :=
  fmt_diagnostic dbg (lines (pf_text f)) default_severities d = Done s.
Definition page (blocks : list str) : str :=
  match blocks with [] => [] | _ => concat (map (fun b => b ++ [cNL; cNL]) blocks) ++ [cNL] end.

Lemma fmt_blocks dbg code m ds s : fmt_diagnostics dbg code m ds = Done s ->
  exists bl, Forall2 (fun d b => fmt_diagnostic dbg code m d = Done b) ds bl /\ s = concat (map (fun b => b ++ [cNL; cNL]) bl).
Proof.
  revert s. induction ds as [|d ds IH]; intros s E; cbn [fmt_diagnostics] in E.
  - injection E as <-. exists []. split; [constructor|reflexivity].
  - destruct (fmt_diagnostic dbg code m d) as [b| |] eqn:Eb; try discriminate. cbn [obind] in E.
    destruct (fmt_diagnostics dbg code m ds) as [t| |]; try discriminate. cbn [obind] in E. injection E as <-.
    destruct (IH t eq_refl) as (bl & H & ->). exists (b :: bl). split; [constructor; assumption|].
    cbn [map concat]. rewrite <- app_assoc. reflexivity.
Qed.
Lemma print_pages dbg l errs out : print_files dbg l = Done (errs, out) ->
  exists pages, Forall2 (fun kv => Forall2 (block dbg (snd kv)) (pf_diags (snd kv))) l pages /\ out = concat (map page pages).
Proof.
  revert errs out. induction l as [|[p f] l IH]; intros errs out E; cbn [print_files] in E.
  - injection E as _ <-. exists []. split; [constructor|reflexivity].
  - destruct (pf_diags f) as [|d ds] eqn:Ed.
    + destruct (IH _ _ E) as (pages & H & ->). exists ([] :: pages). split; [|reflexivity].
      constructor; [cbn [snd]; rewrite Ed; constructor|exact H].
    + destruct (fmt_diagnostics dbg _ _ _) as [s| |] eqn:Es; try discriminate. cbn [obind] in E.
      destruct (print_files dbg l) as [[e t]| |]; try discriminate. cbn [obind] in E. injection E as _ <-.
      destruct (IH _ _ eq_refl) as (pages & H & ->). apply fmt_blocks in Es. destruct Es as (bl & Hb & ->).
      exists (bl :: pages). split; [constructor; [cbn [snd]; rewrite Ed; exact Hb|exact H]|].
      cbn [map concat page]. destruct bl as [|b bl]; [inversion Hb|]. unfold page. rewrite <- !app_assoc. reflexivity.
Qed.

Theorem C61_all_printed : forall dbg fuel o ofiles fs includes file status out,
  cli_main dbg fuel o ofiles fs includes file = Done (status, out) ->
  (exists e, add_file fuel o fs file (set_include_paths fs includes project_new) = Done (inl e) /\ out = [])
  \/ exists pj pages tail, add_file fuel o fs file (set_include_paths fs includes project_new) = Done (inr pj)
       /\ Forall2 (fun kv => Forall2 (block dbg (snd kv)) (pf_diags (snd kv))) (ofiles (pj_files pj)) pages
       /\ out = concat (map page pages) ++ tail /\ (tail = [] \/ tail = bs "OK; No issues found" ++ [cNL]).
Proof.
  intros dbg fuel o ofiles fs includes file status out E. unfold cli_main in E.
  destruct (add_file fuel o fs file (set_include_paths fs includes project_new)) as [[e|pj]| |]; try discriminate;
    cbn [obind] in E.
  - injection E as <- <-. left. eauto.
  - right. exists pj. destruct (print_files dbg (ofiles (pj_files pj))) as [[errs s]| |] eqn:Ep; try discriminate. cbn [obind] in E.
    apply print_pages in Ep. destruct Ep as (pages & H & ->). exists pages. destruct errs; injection E as <- <-.
    + exists ok_message. repeat split; auto.
    + exists []. rewrite app_nil_r. repeat split; auto.
Qed.
Print Assumptions C61_all_printed.

(** two files, three diagnostics *)
Definition ex61 : list (fpath * str) :=
  [(bs "/a.dts", bs "/dts-v1/; /include/ ""/b.dtsi"" / { a = <0x>; }"); (bs "/b.dtsi", bs "/ { }")].
Example C61_case : exists pj out, loads ex61 = Some pj /\ cli ex61 = Done (0, out)
  /\ map (fun kv => (fst kv, length (pf_diags (snd kv)))) (pj_files pj) = [(bs "/a.dts", 3%nat); (bs "/b.dtsi", 1%nat)].
Proof. do 2 eexists. split; [vm_compute; reflexivity|]. split; vm_compute; reflexivity. Qed.

(** ** C43: the printed diagnostic *)
(** *** Lines of a text *)
Lemma strip_cr_none l : ~ In cCR l -> strip_cr l = l.
Proof.
  intros H. unfold strip_cr. destruct (rev l) as [|c r] eqn:E; [reflexivity|].
  assert (Hc : In c l) by (apply in_rev; rewrite E; left; reflexivity).
  destruct (N.eq_dec c 13) as [->|Hn]; [contradiction|]. destruct c as [|p]; [reflexivity|]. do 4 (destruct p as [p|p|]; try reflexivity; try congruence).
Qed.
Lemma lines_go_line cur l r : ~ In cNL l -> lines_go cur (l ++ cNL :: r) = strip_cr (cur ++ l) :: lines_go [] r.
Proof.
  revert cur. induction l as [|c l IH]; intros cur H; cbn [app lines_go].
  - rewrite N.eqb_refl, app_nil_r. reflexivity.
  - destruct (N.eqb_spec c cNL) as [->|Hc]; [exfalso; apply H; left; reflexivity|].
    rewrite IH by (intros K; apply H; right; exact K). rewrite <- app_assoc. reflexivity.
Qed.
Lemma lines_go_last cur l : ~ In cNL l -> nth 0 (lines_go cur l) [] = cur ++ l.
Proof.
  revert cur. induction l as [|c l IH]; intros cur H; cbn [lines_go].
  - rewrite app_nil_r. destruct cur; reflexivity.
  - destruct (N.eqb_spec c cNL) as [->|Hc]; [exfalso; apply H; left; reflexivity|].
    rewrite IH by (intros K; apply H; right; exact K). rewrite <- app_assoc. reflexivity.
Qed.
Lemma first_nl (l : list N) : In cNL l -> exists a b, l = a ++ cNL :: b /\ ~ In cNL a.
Proof.
  induction l as [|c l IH]; intros H; [destruct H|]. destruct (N.eq_dec c cNL) as [->|Hc].
  - exists [], l. split; [reflexivity|intros []].
  - destruct H as [H|H]; [congruence|]. destruct (IH H) as (a & b & -> & Ha). exists (c :: a), b. split; [reflexivity|].
    intros [K|K]; [congruence|contradiction].
Qed.
Lemma strip_cr_end l : strip_cr (l ++ [cCR]) = l.
Proof. unfold strip_cr. rewrite rev_app_distr. cbn [rev app]. apply rev_involutive. Qed.
Lemma strip_cr_other l : (forall x, l <> x ++ [cCR]) -> strip_cr l = l.
Proof.
  intros H. unfold strip_cr. destruct (rev l) as [|c r] eqn:E; [reflexivity|].
  destruct (N.eq_dec c 13) as [->|Hn]; [destruct (H (rev r)); rewrite <- (rev_involutive l), E; reflexivity|].
  destruct c as [|p]; [reflexivity|]. do 4 (destruct p as [p|p|]; try reflexivity; try congruence).
Qed.
Lemma lines_nth_raw a : forall r post, ~ In cNL r -> (post = [] \/ exists q, post = cNL :: q) ->
  nth (N.to_nat (count_nl a)) (lines_go [] (a ++ r ++ post)) [] = match post with [] => since_nl a ++ r | _ => strip_cr (since_nl a ++ r) end.
Proof.
  induction a as [a IH] using (well_founded_induction (Wf_nat.well_founded_ltof _ (@length N))). intros r post Hr Hp.
  destruct (in_dec N.eq_dec cNL a) as [Hin|Hn].
  - destruct (first_nl _ Hin) as (x & y & -> & Hx). rewrite <- app_assoc. cbn [app]. rewrite lines_go_line by exact Hx.
    rewrite since_nl_app_nl.
    replace (N.to_nat (count_nl (x ++ cNL :: y))) with (S (N.to_nat (count_nl y))).
    + cbn [nth]. apply IH; try assumption. unfold Wf_nat.ltof. rewrite app_length. cbn. lia.
    + unfold count_nl. rewrite count_occ_app. cbn. rewrite (proj1 (count_occ_not_In N.eq_dec x cNL) Hx). lia.
  - rewrite since_nl_none by exact Hn. unfold count_nl. rewrite (proj1 (count_occ_not_In N.eq_dec a cNL) Hn). cbn [N.of_nat N.to_nat].
    assert (Hl : ~ In cNL (a ++ r)) by (rewrite in_app_iff; tauto).
    rewrite app_assoc. destruct Hp as [->|(q & ->)].
    + rewrite app_nil_r. apply (lines_go_last [] (a ++ r) Hl).
    + rewrite lines_go_line by exact Hl. reflexivity.
Qed.
(** the rest of a line, the end of the line, the lines after it *)
Definition line_end (r eol rest : str) : Prop :=
  ~ In cNL r /\ (eol = [] /\ rest = [] \/ eol = [cNL] /\ (forall x, r <> x ++ [cCR]) \/ eol = [cCR; cNL]).
Lemma to_line_end (u : str) : exists r post, u = r ++ post /\ ~ In cNL r /\ (post = [] \/ exists q, post = cNL :: q).
Proof.
  destruct (in_dec N.eq_dec cNL u) as [H|H].
  - destruct (first_nl _ H) as (a & b & -> & Ha). exists a, (cNL :: b). eauto.
  - exists u, []. rewrite app_nil_r. auto.
Qed.

(** *** ASCII lines *)
Lemma chars_ascii_app a r : Forall (fun c => c < 128) a -> chars (a ++ r) = a ++ chars r.
Proof.
  induction 1 as [|c a Hc _ IH]; [reflexivity|]. cbn [app chars]. destruct (N.ltb_spec c 128); [|lia]. rewrite IH. reflexivity.
Qed.
Lemma blank_ascii a : Forall (fun c => c < 128) a -> concat (map encode_char (map blank_char a)) = map blank_char a.
Proof.
  induction 1 as [|c a Hc _ IH]; [reflexivity|]. cbn [map concat]. rewrite IH. unfold encode_char, blank_char.
  destruct (is_ws c); [destruct (N.ltb_spec c 128); [reflexivity|lia]|reflexivity].
Qed.

(** what is to be shown above a column: white space is kept, anything else becomes a space *)
Definition aligned (a blanks : str) : Prop :=
  Forall2 (fun c b => (ws_char c /\ b = c) \/ (~ ws_char c /\ b = cSpace)) a blanks.
Lemma aligned_blank a : aligned a (map blank_char a).
Proof.
  induction a as [|c a IH]; cbn [map]; [constructor|]. constructor; [|exact IH]. unfold blank_char.
  assert (H : ws_char c <-> is_ws c = true).
  { unfold ws_char, is_ws. cbn [In]. rewrite !orb_true_iff, !N.eqb_eq. intuition congruence. }
  destruct (is_ws c); [left|right]; (split; [|reflexivity]); [apply H; reflexivity|]. intros K. apply H in K. discriminate.
Qed.
Lemma repeat_length {A} (x : A) n : length (repeat x n) = n.
Proof. induction n; cbn; congruence. Qed.

Lemma line_at a u : ~ (exists x y, a = x ++ [cCR] /\ u = cNL :: y) ->
  exists r eol rest, u = r ++ eol ++ rest /\ line_end r eol rest /\ nth (N.to_nat (count_nl a)) (lines (a ++ u)) [] = since_nl a ++ r.
Proof.
    intros Hcr. destruct (to_line_end u) as (r & post & -> & Hr & Hp).
    destruct Hp as [->|(q & ->)].
    - exists r, [], []. split; [reflexivity|]. split; [split; [exact Hr|auto]|]. exact (lines_nth_raw a r [] Hr (or_introl eq_refl)).
    - pose proof (lines_nth_raw a r (cNL :: q) Hr (or_intror (ex_intro _ q eq_refl))) as L. cbn iota in L.
      destruct (list_eq_dec N.eq_dec (skipn (length r - 1) r) [cCR]) as [E|E].
      + assert (Er : r = firstn (length r - 1) r ++ [cCR]) by (rewrite <- E; symmetry; apply firstn_skipn).
        exists (firstn (length r - 1) r), [cCR; cNL], q. split; [rewrite Er at 1; rewrite <- app_assoc; reflexivity|].
        split; [split; [intros X; apply Hr; rewrite Er; apply in_or_app; left; exact X|auto]|].
        unfold lines. rewrite L. rewrite Er at 1. rewrite app_assoc. apply strip_cr_end.
      + assert (Nr : forall x, r <> x ++ [cCR]).
        { intros x ->. apply E. rewrite app_length. cbn [length]. rewrite Nat.add_sub, skipn_app, skipn_all, Nat.sub_diag. reflexivity. }
        exists r, [cNL], q. split; [reflexivity|]. split; [split; [exact Hr|auto]|]. unfold lines. rewrite L. apply strip_cr_other.
        intros x X. destruct r as [|c r] using rev_ind.
        * rewrite app_nil_r in X. apply Hcr. clear - X. assert (H : exists y, a = y ++ since_nl a).
          { clear X. induction a as [|c a [y IH]]; [exists []; reflexivity|]. cbn [since_nl]. destruct (existsb _ _).
            - exists (c :: y). cbn [app]. f_equal. exact IH.
            - exists []. reflexivity. }
          destruct H as [y H]. exists (y ++ x), q. split; [rewrite H, X; apply app_assoc|reflexivity].
        * rewrite app_assoc in X. apply app_inj_tail in X. destruct X as [_ ->]. exact (Nr r eq_refl).
Qed.
(** The text up to the start of the span is [a]; [since_nl a] is the part of it in the last line. Columns are shown correctly
    if this part is ASCII (a position counts bytes, the printer characters). *)
Theorem C43_underline_partial : forall dbg text m d a u,
  text = a ++ u -> span_start (dg_span d) = pos_after a ->
  pos_line (span_end (dg_span d)) = pos_line (span_start (dg_span d)) ->
  pos_char (span_start (dg_span d)) <= pos_char (span_end (dg_span d)) ->
  ~ (exists x y, a = x ++ [cCR] /\ u = cNL :: y) -> Forall (fun c => c < 128) (since_nl a) ->
  exists r eol rest num col gutter blanks carets, u = r ++ eol ++ rest /\ line_end r eol rest
    /\ numeral 10 num (pos_line (span_start (dg_span d)) + 1) /\ numeral 10 col (pos_char (span_start (dg_span d)) + 1)
    /\ gutter = repeat cSpace (length num)
    /\ aligned (since_nl a) blanks /\ N.of_nat (length blanks) = pos_char (span_start (dg_span d))
    /\ carets = repeat 94 (N.to_nat (N.max 1 (pos_char (span_end (dg_span d)) - pos_char (span_start (dg_span d)))))
    /\ fmt_diagnostic dbg (lines text) m d = Done (
         show_severity (m (dg_kind d)) ++ bs " --> " ++ dg_source d ++ bs ":" ++ num ++ bs ":" ++ col ++ [cNL]
         ++ gutter ++ bs " |" ++ [cNL]
         ++ num ++ bs " | " ++ since_nl a ++ r ++ [cNL]
         ++ gutter ++ bs " | " ++ blanks ++ carets ++ bs " " ++ dg_msg d).
Proof.
  intros dbg text m d a u -> Hs Hl Hc Hcr Ha.
  destruct (line_at a u Hcr) as (r & eol & rest & -> & He & Hline). change (count_nl a) with (pos_line (pos_after a)) in Hline. rewrite <- Hs in Hline.
  exists r, eol, rest, (show_dec (pos_line (span_start (dg_span d)) + 1)), (show_dec (pos_char (span_start (dg_span d)) + 1)).
  eexists _, (map blank_char (since_nl a)), _.
  split; [reflexivity|]. split; [exact He|]. split; [apply show_dec_numeral|]. split; [apply show_dec_numeral|].
  split; [reflexivity|]. split; [apply aligned_blank|]. split; [rewrite map_length, Hs; reflexivity|]. split; [reflexivity|].
  unfold fmt_diagnostic. rewrite Hl, N.eqb_refl. cbn [negb]. rewrite andb_false_r.
  rewrite Hline. rewrite chars_ascii_app by exact Ha. rewrite map_app, firstn_app.
  replace (N.to_nat (pos_char (span_start (dg_span d)))) with (length (map blank_char (since_nl a))).
  2:{ rewrite map_length, Hs. cbn. lia. }
  rewrite firstn_all, Nat.sub_diag. cbn [firstn]. rewrite app_nil_r, blank_ascii by exact Ha.
  unfold caret_count. replace (length (map blank_char (since_nl a))) with (N.to_nat (pos_char (span_start (dg_span d)))) by (rewrite map_length, Hs; cbn; lia).
  unfold repeat_char. rewrite Nat2N.id. unfold diag_severity.
  destruct (N.eqb_spec (pos_char (span_start (dg_span d))) (pos_char (span_end (dg_span d)))) as [E|E].
  - cbn [obind]. rewrite <- E, N.sub_diag. rewrite <- !app_assoc. reflexivity.
  - destruct (N.leb_spec (pos_char (span_start (dg_span d))) (pos_char (span_end (dg_span d)))); [|lia]. cbn [obind].
    replace (N.max 1 (pos_char (span_end (dg_span d)) - pos_char (span_start (dg_span d))))
      with (pos_char (span_end (dg_span d)) - pos_char (span_start (dg_span d))) by lia.
    rewrite <- !app_assoc. reflexivity.
Qed.
Print Assumptions C43_underline_partial.

(** a diagnostic in the second line, behind a tab, in a text with Windows line ends *)
Definition text43 : str := bs "/dts-v1/;" ++ [cCR; cNL; cTab] ++ bs "/ { b = <0x>; };" ++ [cCR; cNL].
Example C43_case : exists d, proj_diags (add1 [(bs "/a.dts", text43)] (bs "/a.dts")) = Some [(IntError, dg_span d)]
  /\ span_start (dg_span d) = pos_after (firstn 21 text43)
  /\ pos_line (span_end (dg_span d)) = pos_line (span_start (dg_span d))
  /\ pos_char (span_start (dg_span d)) <= pos_char (span_end (dg_span d))
  /\ ~ (exists x y, firstn 21 text43 = x ++ [cCR] /\ skipn 21 text43 = cNL :: y) /\ Forall (fun c => c < 128) (since_nl (firstn 21 text43))
  /\ fmt_diagnostic true (lines text43) default_severities d
     = Done (bs "error --> /a.dts:2:11" ++ [cNL] ++ bs "  |" ++ [cNL] ++ bs "2 | " ++ [cTab] ++ bs "/ { b = <0x>; };" ++ [cNL]
             ++ bs "  | " ++ [cTab] ++ bs "         ^^ cannot parse integer from empty string").
Proof.
  exists (mkDiag IntError (mkSpan (mkPos 1 10) (mkPos 1 12)) (bs "/a.dts") (int_error_msg IntEmpty)).
  split; [vm_compute; reflexivity|]. split; [vm_compute; reflexivity|]. split; [reflexivity|]. split; [cbn; lia|].
  split; [intros (x & y & _ & H); vm_compute in H; discriminate|]. split; [vm_compute; repeat constructor|]. vm_compute. reflexivity.
Qed.

(** In release builds printing always succeeds. *)
Theorem C43_release_total : forall code m d, exists out, fmt_diagnostic false code m d = Done out.
Proof.
  intros code m d. unfold fmt_diagnostic, caret_count. cbn [andb].
  destruct (_ =? _); [|destruct (_ <=? _)]; cbn [obind]; eexists; reflexivity.
Qed.
Print Assumptions C43_release_total.

(** In debug builds it fails exactly for spans of several lines and for spans that end before they start. *)
Theorem C43_debug_exact : forall code m d,
  fmt_diagnostic true code m d = Panic <->
  pos_line (span_start (dg_span d)) <> pos_line (span_end (dg_span d))
  \/ pos_char (span_end (dg_span d)) < pos_char (span_start (dg_span d)).
Proof.
  intros code m d. unfold fmt_diagnostic, caret_count. cbn [andb].
  destruct (N.eqb_spec (pos_line (span_start (dg_span d))) (pos_line (span_end (dg_span d)))) as [E|E]; cbn [negb].
  - destruct (N.eqb_spec (pos_char (span_start (dg_span d))) (pos_char (span_end (dg_span d)))) as [F|F]; cbn [obind].
    + split; [discriminate|]. intros [H|H]; [congruence|lia].
    + destruct (N.leb_spec (pos_char (span_start (dg_span d))) (pos_char (span_end (dg_span d)))) as [G|G]; cbn [obind].
      * split; [discriminate|]. intros [H|H]; [congruence|lia].
      * split; [auto|reflexivity].
  - split; [auto|reflexivity].
Qed.
Print Assumptions C43_debug_exact.

(** the caret count is a lower bound of the length of the output *)
Lemma carets_length code m d n out : caret_count false (dg_span d) = Done n -> fmt_diagnostic false code m d = Done out ->
  n <= N.of_nat (length out).
Proof.
  intros Hn E. unfold fmt_diagnostic in E. cbn [andb] in E. rewrite Hn in E. cbn [obind] in E. injection E as <-.
  repeat (rewrite app_length || (progress cbn [length])). unfold repeat_char. rewrite (repeat_length 94). lia.
Qed.

(** A string of two lines in the wrong place: a debug build panics, a release build prints more than four thousand million carets. *)
Definition text43b : str := bs "/dts-v1/; / {  """ ++ [cNL] ++ bs """ };".
Definition diags43 (text : str) : list diag :=
  match loads [(bs "/a.dts", text)] with Some pj => concat (map (fun kv => pf_diags (snd kv)) (pj_files pj)) | None => [] end.
Theorem C43_refuted : exists d out, In d (diags43 text43b)
  /\ cli [(bs "/a.dts", text43b)] = Panic
  /\ fmt_diagnostic true (lines text43b) default_severities d = Panic
  /\ fmt_diagnostic false (lines text43b) default_severities d = Done out /\ 4000000000 < N.of_nat (length out).
Proof.
  exists (hd (mkDiag IOError (as_span pos_zero) [] []) (diags43 text43b)).
  destruct (C43_release_total (lines text43b) default_severities (hd (mkDiag IOError (as_span pos_zero) [] []) (diags43 text43b))) as (out & E).
  exists out. split; [vm_compute; left; reflexivity|]. split; [vm_compute; reflexivity|]. split; [vm_compute; reflexivity|]. split; [exact E|].
  eapply N.lt_le_trans; [|eapply carets_length; [|exact E]; vm_compute; reflexivity]. vm_compute. reflexivity.
Qed.
Print Assumptions C43_refuted.

(** A line with a character of two bytes: the carets are one column too far to the right. *)
Definition text43c : str := bs "/dts-v1/; / { a = """ ++ [195; 169] ++ bs """; b = <0x>; };".
Theorem C43_column_refuted : exists d a u out, In d (diags43 text43c) /\ text43c = a ++ u /\ span_start (dg_span d) = pos_after a
  /\ ~ In cNL a /\ length (chars a) = 28%nat
  /\ fmt_diagnostic true (lines text43c) default_severities d = Done (out ++ [cNL] ++ bs "  | " ++ repeat cSpace 29 ++ bs "^^ cannot parse integer from empty string").
Proof.
  exists (hd (mkDiag IOError (as_span pos_zero) [] []) (diags43 text43c)), (firstn 29 text43c), (skipn 29 text43c).
  exists (bs "error --> /a.dts:1:30" ++ [cNL] ++ bs "  |" ++ [cNL] ++ bs "1 | " ++ text43c).
  split; [vm_compute; left; reflexivity|]. split; [symmetry; apply firstn_skipn|]. split; [vm_compute; reflexivity|].
  split; [vm_compute; intuition discriminate|]. split; vm_compute; reflexivity.
Qed.
Print Assumptions C43_column_refuted.
