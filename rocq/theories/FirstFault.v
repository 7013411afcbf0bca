(** What stands behind the token that stops the tool has no part in it: with that token gone, or with anything else behind it, the same derivations go through *)
From Verif Require Import Parser LexSpec Utf8 LexerProofs Grammar NameProofs NumProofs ParserSafe TokParser ParserSim GrammarComplete GrammarSound
  Utf8Adequacy NameReport NumReport Forgiving Rejected.

(** [t]: the token in question. [P l l0]: the tokens of the one text and those of the other, from the same place on.
    [S l]: [t] is still to come in [l]. [gone]: in the other text, [t] and all behind it are missing. *)
Section Swap.
  Context (src : fpath) (incl : list fpath) (resumes resumes0 : token -> list token -> Prop).
  Context (t : token) (gone : Prop) (S : list token -> Prop) (P : list token -> list token -> Prop).
  Hypothesis S_tok : forall x l, S l -> S (x :: l).
  Hypothesis S_res : forall c u l q, is (Unknown c) u -> resumes u q -> S q -> S (u :: l).
  Hypothesis S_here : forall r, S (t :: r).
  Hypothesis P_tok : forall x l l0, P (x :: l) l0 -> S l -> exists l1, l0 = x :: l1 /\ P l l1.
  Hypothesis P_res : forall c u l q l0, is (Unknown c) u -> P (u :: l) l0 -> resumes u q -> S q -> exists l1 q0, l0 = u :: l1 /\ resumes0 u q0 /\ P q q0.
  Hypothesis P_here : forall r l0, P (t :: r) l0 -> gone /\ l0 = [] \/ exists r0, l0 = t :: r0.
  Hypothesis P_head : forall l l0, P l l0 -> S l ->
    gone /\ l0 = [] /\ (exists r, l = t :: r) \/ exists x l1 l01, l = x :: l1 /\ l0 = x :: l01.

  Ltac inv H := inversion H; subst; clear H.
  (** the next token is the same in both *)
  Ltac step HP HS := let l1 := fresh "m" in let E := fresh "E" in let P1 := fresh "HP" in
    destruct (P_tok _ _ _ HP HS) as (l1 & E & P1); subst.

  Lemma w_no_label l l0 : P l l0 -> S l -> no_label l -> no_label l0.
  Proof.
    intros HP HS H. destruct (P_head _ _ HP HS) as [(_ & -> & _)|(x & l1 & l01 & -> & ->)]; [intros u r s E; discriminate E|].
    intros u r s E. injection E as <- _. exact (H _ _ s eq_refl).
  Qed.
  Lemma w_skip l l' : k_skip l l' -> S l' -> S l /\ forall l0, P l l0 -> exists l0', P l' l0' /\ k_skip l0 l0'.
  Proof.
    intros [l1 H|x s l1 Hx] HS; (split; [auto|intros l0 HP]).
    - exists l0. split; [exact HP|apply ks_none; eapply w_no_label; eassumption].
    - step HP HS. exists m. split; [assumption|eapply ks_label; exact Hx].
  Qed.
  Lemma w_parens l l' : parens l l' -> S l' -> S l /\ forall l0, P l l0 -> exists l0', P l' l0' /\ parens l0 l0'.
  Proof.
    induction 1 as [l|x l l' H1 H2 _ IH|x l u l' l'' H1 H2 _ IH1 _ IH2]; intros HS.
    - split; [exact HS|]. intros l0 HP. exists l0. split; [exact HP|constructor].
    - destruct (IH HS) as [K1 K2]. split; [auto|]. intros l0 HP. step HP K1. destruct (K2 _ HP0) as (q & Q1 & Q2). exists q.
      split; [exact Q1|apply pa_token; assumption].
    - destruct (IH2 HS) as [K1 K2]. destruct (IH1 (S_tok _ _ K1)) as [K3 K4]. split; [auto|]. intros l0 HP. step HP K3.
      destruct (K4 _ HP0) as (q & Q1 & Q2). step Q1 K1. destruct (K2 _ HP1) as (q' & Q3 & Q4). exists q'. split; [exact Q3|eapply pa_nest; eassumption].
  Qed.
  Lemma w_cell l c l' r : k_cell src l c l' r -> S l' -> S l /\ forall l0, P l l0 -> exists l0', P l' l0' /\ k_cell src l0 c l0' r.
  Proof.
    intros [x n l1 r0 H|x y l1 ds H|x l1 u l2 H1 H2 H3] HS.
    - split; [auto|]. intros l0 HP. step HP HS. exists m. split; [assumption|apply kc_number, H].
    - split; [auto|]. intros l0 HP. step HP HS. exists m. split; [assumption|apply kc_reference, H].
    - destruct (w_parens _ _ H3 (S_tok _ _ HS)) as [K1 K2]. split; [auto|]. intros l0 HP. step HP K1. destruct (K2 _ HP0) as (q & Q1 & Q2).
      step Q1 HS. eexists. split; [eassumption|eapply kc_expression; eassumption].
  Qed.
  Lemma w_cells l cs e l' r : k_cells src l cs e l' r -> S l' -> S l /\ forall l0, P l l0 -> exists l0', P l' l0' /\ k_cells src l0 cs e l0' r.
  Proof.
    induction 1 as [l x l' H1 H2|l l1 c l2 r cs x l' r' H1 H2 _ IH|l b l2 cs x l' r' H1 H2 _ IH]; intros HS.
    - destruct (w_skip _ _ H1 (S_tok _ _ HS)) as [K1 K2]. split; [exact K1|]. intros l0 HP. destruct (K2 _ HP) as (q & Q1 & Q2). step Q1 HS.
      eexists. split; [eassumption|apply kcs_nil; assumption].
    - destruct (IH HS) as [K1 K2]. destruct (w_cell _ _ _ _ H2 K1) as [K3 K4]. destruct (w_skip _ _ H1 K3) as [K5 K6]. split; [exact K5|].
      intros l0 HP. destruct (K6 _ HP) as (q & Q1 & Q2). destruct (K4 _ Q1) as (q' & Q3 & Q4). destruct (K2 _ Q3) as (q2 & Q5 & Q6).
      exists q2. split; [exact Q5|eapply kcs_cons; eassumption].
    - destruct (IH HS) as [K1 K2]. destruct (w_skip _ _ H1 (S_tok _ _ K1)) as [K5 K6]. split; [exact K5|].
      intros l0 HP. destruct (K6 _ HP) as (q & Q1 & Q2). step Q1 K1. destruct (K2 _ HP0) as (q2 & Q5 & Q6).
      exists q2. split; [exact Q5|eapply kcs_other; eassumption].
  Qed.
  Lemma w_bytes l ws e l' r : k_bytes l ws e l' r -> S l' -> S l /\ forall l0, P l l0 -> exists l0', P l' l0' /\ k_bytes l0 ws e l0' r.
  Proof.
    induction 1 as [l x l' H1 H2|l b y l2 r ws x l' r' H1 H2 _ IH]; intros HS.
    - destruct (w_skip _ _ H1 (S_tok _ _ HS)) as [K1 K2]. split; [exact K1|]. intros l0 HP. destruct (K2 _ HP) as (q & Q1 & Q2). step Q1 HS.
      eexists. split; [eassumption|apply kbs_nil; assumption].
    - destruct (IH HS) as [K1 K2]. destruct (w_skip _ _ H1 (S_tok _ _ K1)) as [K5 K6]. split; [exact K5|].
      intros l0 HP. destruct (K6 _ HP) as (q & Q1 & Q2). step Q1 K1. destruct (K2 _ HP0) as (q2 & Q5 & Q6).
      exists q2. split; [exact Q5|eapply kbs_cons; eassumption].
  Qed.
  Lemma w_bits l l' r : k_bits l l' r -> S l' -> S l /\ forall l0, P l l0 -> exists l0', P l' l0' /\ k_bits l0 l0' r.
  Proof.
    intros [l1 H|d x s l1 Hd Hx|d x l1 Hd Hx] HS.
    - split; [exact HS|]. intros l0 HP. exists l0. split; [exact HP|]. apply kb_none.
      destruct (P_head _ _ HP HS) as [(_ & -> & _)|(x & l2 & l01 & -> & ->)]; [intros u r0 E; discriminate E|].
      intros u r0 E. injection E as <- _. exact (H _ _ eq_refl).
    - split; [auto|]. intros l0 HP. step HP (S_tok x _ HS). step HP0 HS. eexists. split; [eassumption|eapply kb_width; eassumption].
    - split; [auto|]. intros l0 HP. step HP (S_tok x _ HS). step HP0 HS. eexists. split; [eassumption|eapply kb_other; eassumption].
  Qed.
  Lemma w_value l v l' r : k_value src l v l' r -> S l' -> S l /\ forall l0, P l l0 -> exists l0', P l' l0' /\ k_value src l0 v l0' r.
  Proof.
    intros [l1 x s l2 r0 H1 H2|l1 x y l2 r0 ds H1 H2|l1 x l2 cs e l3 r0 r1 H1 H2 H3|l1 x l2 ws e l3 r0 r1 H1 H2 H3] HS.
    - destruct (w_bits _ _ _ H1 (S_tok _ _ HS)) as [K1 K2]. split; [exact K1|]. intros l0 HP. destruct (K2 _ HP) as (q & Q1 & Q2). step Q1 HS.
      eexists. split; [eassumption|eapply kv_string; eassumption].
    - destruct (w_bits _ _ _ H1 (S_tok _ _ HS)) as [K1 K2]. split; [exact K1|]. intros l0 HP. destruct (K2 _ HP) as (q & Q1 & Q2). step Q1 HS.
      eexists. split; [eassumption|eapply kv_reference; eassumption].
    - destruct (w_cells _ _ _ _ _ H3 HS) as [K3 K4]. destruct (w_bits _ _ _ H1 (S_tok _ _ K3)) as [K1 K2]. split; [exact K1|].
      intros l0 HP. destruct (K2 _ HP) as (q & Q1 & Q2). step Q1 K3. destruct (K4 _ HP0) as (q2 & Q3 & Q4).
      eexists. split; [eassumption|eapply kv_cells; eassumption].
    - destruct (w_bytes _ _ _ _ _ H3 HS) as [K3 K4]. destruct (w_bits _ _ _ H1 (S_tok _ _ K3)) as [K1 K2]. split; [exact K1|].
      intros l0 HP. destruct (K2 _ HP) as (q & Q1 & Q2). step Q1 K3. destruct (K4 _ HP0) as (q2 & Q3 & Q4).
      eexists. split; [eassumption|eapply kv_bytes; eassumption].
  Qed.
  (** values need the token behind them *)
  Lemma w_values l vs l' r : k_values src l vs l' r -> S l' ->
    S l /\ forall l0, P l l0 -> (exists l0', P l' l0' /\ k_values src l0 vs l0' r) \/ gone /\ x_values src l0 AtEnd.
  Proof.
    induction 1 as [l l1 v l2 x l3 r H1 H2 H3 H4|l l1 v l2 c l3 r vs l' r' H1 H2 H3 H4 _ IH]; intros HS.
    - destruct (w_skip _ _ H3 HS) as [K1 K2]. destruct (w_value _ _ _ _ H2 K1) as [K3 K4]. destruct (w_skip _ _ H1 K3) as [K5 K6].
      split; [exact K5|]. intros l0 HP. destruct (K6 _ HP) as (q & Q1 & Q2). destruct (K4 _ Q1) as (q1 & Q3 & Q4). destruct (K2 _ Q3) as (q2 & Q5 & Q6).
      destruct (P_head _ _ Q5 HS) as [(G & -> & _)|(y & l4 & l01 & E & ->)].
      + right. split; [exact G|]. eapply xvs_end; eassumption.
      + injection E as <- <-. left. eexists. split; [eassumption|eapply kvs_one; eassumption].
    - destruct (IH HS) as [K7 K8]. destruct (w_skip _ _ H3 (S_tok _ _ K7)) as [K1 K2]. destruct (w_value _ _ _ _ H2 K1) as [K3 K4].
      destruct (w_skip _ _ H1 K3) as [K5 K6].
      split; [exact K5|]. intros l0 HP. destruct (K6 _ HP) as (q & Q1 & Q2). destruct (K4 _ Q1) as (q1 & Q3 & Q4). destruct (K2 _ Q3) as (q2 & Q5 & Q6).
      step Q5 K7. destruct (K8 _ HP0) as [(q3 & Q7 & Q8)|[G Q7]].
      + left. eexists. split; [eassumption|eapply kvs_cons; eassumption].
      + right. split; [exact G|]. eapply xvs_more; eassumption.
  Qed.
  Lemma w_end l e l' r : k_end resumes l e l' r -> S l' -> S l /\ forall l0, P l l0 -> exists l0', P l' l0' /\ k_end resumes0 l0 e l0' r.
  Proof.
    intros [x l1 Hx|l1 H|u c l1 l2 Hu H] HS.
    - split; [auto|]. intros l0 HP. step HP HS. eexists. split; [eassumption|apply ke_semicolon, Hx].
    - split; [exact HS|]. intros l0 HP. exists l0. split; [exact HP|]. apply ke_missing.
      destruct (P_head _ _ HP HS) as [(_ & -> & _)|(x & l2 & l01 & -> & ->)]; [intros u r0 E; discriminate E|].
      intros u r0 E. injection E as <- _. exact (H _ _ eq_refl).
    - split; [eapply S_res; eassumption|]. intros l0 HP. destruct (P_res _ _ _ _ _ Hu HP H HS) as (m & q & -> & Q1 & Q2).
      exists q. split; [exact Q2|eapply ke_unknown; eassumption].
  Qed.
  Lemma w_omit l o l' : g_omit l o l' -> S l' -> S l /\ forall l0, P l l0 -> exists l0', P l' l0' /\ g_omit l0 o l0'.
  Proof.
    intros [l1|x l1 Hx] HS; (split; [auto|intros l0 HP]); [exists l0; split; [exact HP|constructor]|].
    step HP HS. eexists. split; [eassumption|apply go_some, Hx].
  Qed.
  Lemma w_label l lb l' r : k_label src l lb l' r -> S l' -> S l /\ forall l0, P l l0 -> exists l0', P l' l0' /\ k_label src l0 lb l0' r.
  Proof.
    intros [l1|x s l1 ds Hx H] HS; (split; [auto|intros l0 HP]); [exists l0; split; [exact HP|constructor]|].
    step HP HS. eexists. split; [eassumption|eapply kl_some; eassumption].
  Qed.
  (** an optional directive and label, and the token behind them *)
  Lemma w_lead l o l1 lb x l2 r : g_omit l o l1 -> k_label src l1 lb (x :: l2) r -> S l2 ->
    S l /\ forall l0, P l l0 -> exists l10 l20, g_omit l0 o l10 /\ k_label src l10 lb (x :: l20) r /\ P l2 l20.
  Proof.
    intros Ho Hl HS. destruct (w_label _ _ _ _ Hl (S_tok _ _ HS)) as [K1 K2]. destruct (w_omit _ _ _ Ho K1) as [K3 K4]. split; [exact K3|].
    intros l0 HP. destruct (K4 _ HP) as (q & Q1 & Q2). destruct (K2 _ Q1) as (q1 & Q3 & Q4). step Q3 HS. exists q, m. auto.
  Qed.
  Lemma w_lead2 l o l1 lb x y l2 r : g_omit l o l1 -> k_label src l1 lb (x :: y :: l2) r -> S l2 ->
    S l /\ forall l0, P l l0 -> exists l10 l20, g_omit l0 o l10 /\ k_label src l10 lb (x :: y :: l20) r /\ P l2 l20.
  Proof.
    intros Ho Hl HS. destruct (w_lead _ _ _ _ _ _ _ Ho Hl (S_tok _ _ HS)) as [K1 K2]. split; [exact K1|].
    intros l0 HP. destruct (K2 _ HP) as (l10 & l20 & Q1 & Q2 & Q3). step Q3 HS. exists l10, m. auto.
  Qed.

  (** items that break off *)
  Definition cut_items (seen : bool) (l : list token) : Prop :=
    exists its l1 r, k_items src resumes0 seen l its l1 r /\ x_item src resumes0 l1 AtEnd.
  Lemma cut_here seen l : x_item src resumes0 l AtEnd -> cut_items seen l.
  Proof. intros H. exists [], l, []. split; [constructor|exact H]. Qed.
  Lemma w_items :
    (forall l pl l' r, k_body src resumes l pl l' r -> S l' ->
      S l /\ forall l0, P l l0 -> (exists l0', P l' l0' /\ k_body src resumes0 l0 pl l0' r) \/ gone /\ x_body src resumes0 l0 AtEnd)
    /\ (forall seen l its l' r, k_items src resumes seen l its l' r -> S l' ->
      S l /\ forall l0, P l l0 -> (exists l0', P l' l0' /\ k_items src resumes0 seen l0 its l0' r) \/ gone /\ cut_items seen l0).
  Proof.
    apply k_body_items_ind.
    - intros l its r l1 o l2 lb rl c l3 e l4 re _ IH Ho Hl Hc He HS.
      destruct (w_end _ _ _ _ He HS) as [K1 K2]. destruct (w_lead _ _ _ _ _ _ _ Ho Hl K1) as [K3 K4]. destruct (IH K3) as [K5 K6].
      split; [exact K5|]. intros l0 HP. destruct (K6 _ HP) as [(q & Q1 & Q2)|[G (its' & q & r' & Q1 & Q2)]].
      + left. destruct (K4 _ Q1) as (l10 & l20 & Q3 & Q4 & Q5). destruct (K2 _ Q5) as (q2 & Q6 & Q7). exists q2. split; [exact Q6|].
        eapply kbo; eassumption.
      + right. split; [exact G|]. eapply xb; eassumption.
    - intros seen l HS. split; [exact HS|]. intros l0 HP. left. exists l0. split; [exact HP|constructor].
    - intros seen d x s nm ds l e l1 re its l2 r Hd Hx Hn Hr He _ IH HS. destruct (IH HS) as [K1 K2]. destruct (w_end _ _ _ _ He K1) as [K3 K4].
      split; [auto|]. intros l0 HP. step HP (S_tok x _ K3). step HP0 K3. destruct (K4 _ HP1) as (q & Q1 & Q2).
      destruct (K2 _ Q1) as [(q1 & Q3 & Q4)|[G (its' & q1 & r' & Q3 & Q4)]].
      + left. exists q1. split; [exact Q3|]. eapply ki_delete_node; eassumption.
      + right. split; [exact G|]. eexists _, _, _. split; [eapply ki_delete_node; eassumption|exact Q4].
    - intros seen d x s ds l e l1 re its l2 r Hd Hx Hr He _ IH HS. destruct (IH HS) as [K1 K2]. destruct (w_end _ _ _ _ He K1) as [K3 K4].
      split; [auto|]. intros l0 HP. step HP (S_tok x _ K3). step HP0 K3. destruct (K4 _ HP1) as (q & Q1 & Q2).
      destruct (K2 _ Q1) as [(q1 & Q3 & Q4)|[G (its' & q1 & r' & Q3 & Q4)]].
      + left. exists q1. split; [exact Q3|]. eapply ki_delete_property; eassumption.
      + right. split; [exact G|]. eexists _, _, _. split; [eapply ki_delete_property; eassumption|exact Q4].
    - intros seen l o l1 lb rl x s ds y l2 vs l3 rv e l4 re its l5 r Ho Hl Hx Hr Hy Hv He _ IH HS. destruct (IH HS) as [K1 K2].
      destruct (w_end _ _ _ _ He K1) as [K3 K4]. destruct (w_values _ _ _ _ Hv K3) as [K5 K6]. destruct (w_lead2 _ _ _ _ _ _ _ _ Ho Hl K5) as [K7 K8].
      split; [exact K7|]. intros l0 HP. destruct (K8 _ HP) as (l10 & l20 & Q1 & Q2 & Q3). destruct (K6 _ Q3) as [(q & Q4 & Q5)|[G Q4]].
      + destruct (K4 _ Q4) as (q1 & Q6 & Q7). destruct (K2 _ Q6) as [(q2 & Q8 & Q9)|[G (its' & q2 & r' & Q8 & Q9)]].
        * left. exists q2. split; [exact Q8|]. eapply ki_property; eassumption.
        * right. split; [exact G|]. eexists _, _, _. split; [eapply ki_property; eassumption|exact Q9].
      + right. split; [exact G|]. apply cut_here. eapply xi_values; eassumption.
    - intros seen l o l1 lb rl x s ds y l2 its l3 r Ho Hl Hx Hr Hy _ IH HS. destruct (IH HS) as [K1 K2].
      destruct (w_lead2 _ _ _ _ _ _ _ _ Ho Hl K1) as [K7 K8].
      split; [exact K7|]. intros l0 HP. destruct (K8 _ HP) as (l10 & l20 & Q1 & Q2 & Q3). destruct (K2 _ Q3) as [(q2 & Q8 & Q9)|[G (its' & q2 & r' & Q8 & Q9)]].
      + left. exists q2. split; [exact Q8|]. eapply ki_empty_property; eassumption.
      + right. split; [exact G|]. eexists _, _, _. split; [eapply ki_empty_property; eassumption|exact Q9].
    - intros seen l o l1 lb rl x s nm ds b l2 pl l3 rb its l4 r Ho Hl Hx Hn Hr Hb _ IHb _ IH HS. destruct (IH HS) as [K1 K2].
      destruct (IHb K1) as [K3 K4]. destruct (w_lead2 _ _ _ _ _ _ _ _ Ho Hl K3) as [K7 K8].
      split; [exact K7|]. intros l0 HP. destruct (K8 _ HP) as (l10 & l20 & Q1 & Q2 & Q3). destruct (K4 _ Q3) as [(q & Q4 & Q5)|[G Q4]].
      + destruct (K2 _ Q4) as [(q2 & Q8 & Q9)|[G (its' & q2 & r' & Q8 & Q9)]].
        * left. exists q2. split; [exact Q8|]. eapply ki_node; eassumption.
        * right. split; [exact G|]. eexists _, _, _. split; [eapply ki_node; eassumption|exact Q9].
      + right. split; [exact G|]. apply cut_here. eapply xi_node; eassumption.
  Qed.
  Definition w_body := proj1 w_items.
  Lemma w_primary l p l' r : k_primary src incl resumes l p l' r -> S l' ->
    S l /\ forall l0, P l l0 -> (exists l0', P l' l0' /\ k_primary src incl resumes0 l0 p l0' r) \/ gone /\ x_primary src resumes0 l0 AtEnd.
  Proof.
    intros [x l1 e l2 r0 Hx He|x l1 e l2 r0 Hx He|x a na ra b nb rb l1 e l2 r0 Hx Ha Hb He|x f s l1 Hx Hf|x f s l1 Hx Hf Hn|x f s e l1 Hx Hf He
      |x b l1 pl l2 r0 Hx Hb H|x y ds b l1 pl l2 r0 Hx Hb H|d x y ds l1 e l2 r0 Hd Hx He|d x y ds l1 e l2 r0 Hd Hx He] HS.
    - destruct (w_end _ _ _ _ He HS) as [K1 K2]. split; [auto|]. intros l0 HP. step HP K1. destruct (K2 _ HP0) as (q & Q1 & Q2).
      left. exists q. split; [exact Q1|eapply kp_header; eassumption].
    - destruct (w_end _ _ _ _ He HS) as [K1 K2]. split; [auto|]. intros l0 HP. step HP K1. destruct (K2 _ HP0) as (q & Q1 & Q2).
      left. exists q. split; [exact Q1|eapply kp_plugin; eassumption].
    - destruct (w_end _ _ _ _ He HS) as [K1 K2]. split; [auto|]. intros l0 HP. step HP (S_tok a _ (S_tok b _ K1)). step HP0 (S_tok b _ K1). step HP1 K1.
      destruct (K2 _ HP2) as (q & Q1 & Q2). left. exists q. split; [exact Q1|eapply kp_memreserve; eassumption].
    - split; [auto|]. intros l0 HP. step HP (S_tok f _ HS). step HP0 HS. left. eexists. split; [eassumption|eapply kp_c_include; eassumption].
    - split; [auto|]. intros l0 HP. step HP (S_tok f _ HS). step HP0 HS. left. exists m0. split; [assumption|eapply kp_include; [eassumption..|]].
      destruct (P_head _ _ HP1 HS) as [(_ & -> & _)|(z & l2 & l01 & -> & ->)]; [intros u r0 E; discriminate E|].
      intros u r0 E. injection E as <- _. exact (Hn _ _ eq_refl).
    - split; [auto|]. intros l0 HP. step HP (S_tok f _ (S_tok e _ HS)). step HP0 (S_tok e _ HS). step HP1 HS. left. eexists.
      split; [eassumption|eapply kp_include_semicolon; eassumption].
    - destruct (w_body _ _ _ _ H HS) as [K1 K2]. split; [auto|]. intros l0 HP. step HP (S_tok b _ K1). step HP0 K1.
      destruct (K2 _ HP1) as [(q & Q1 & Q2)|[G Q1]].
      + left. exists q. split; [exact Q1|eapply kp_root; eassumption].
      + right. split; [exact G|]. eapply xp_root; [exact Hx|]. apply xk_body; assumption.
    - destruct (w_body _ _ _ _ H HS) as [K1 K2]. split; [auto|]. intros l0 HP. step HP (S_tok b _ K1). step HP0 K1.
      destruct (K2 _ HP1) as [(q & Q1 & Q2)|[G Q1]].
      + left. exists q. split; [exact Q1|eapply kp_ref_node; eassumption].
      + right. split; [exact G|]. eapply xp_ref_node; [exact Hx|]. apply xk_body; assumption.
    - destruct (w_end _ _ _ _ He HS) as [K1 K2]. split; [auto|]. intros l0 HP. step HP (S_tok x _ K1). step HP0 K1. destruct (K2 _ HP1) as (q & Q1 & Q2).
      left. exists q. split; [exact Q1|eapply kp_delete_node; eassumption].
    - destruct (w_end _ _ _ _ He HS) as [K1 K2]. split; [auto|]. intros l0 HP. step HP (S_tok x _ K1). step HP0 K1. destruct (K2 _ HP1) as (q & Q1 & Q2).
      left. exists q. split; [exact Q1|eapply kp_omit; eassumption].
  Qed.

  (** *** What stops it *)
  Context (w : str).
  Notation st := (AtToken t w).
  Lemma w_one fit what l : x_one fit what l st -> S l /\ forall l0, P l l0 -> x_one fit what l0 st \/ gone /\ x_one fit what l0 AtEnd.
  Proof.
    intros H. inversion H as [|x l1 Hx]; subst; clear H. split; [apply S_here|]. intros l0 HP. destruct (P_here _ _ HP) as [[G ->]|[r0 ->]].
    - right. split; [exact G|constructor].
    - left. apply xo_other. assumption.
  Qed.
  Lemma w_xvalue l : x_value src l st -> S l /\ forall l0, P l l0 -> x_value src l0 st \/ gone /\ x_value src l0 AtEnd.
  Proof.
    intros H. inversion H as [| | | |l1 x l2 r H1 H2]; subst; clear H. destruct (w_bits _ _ _ H1 (S_here _)) as [K1 K2]. split; [exact K1|].
    intros l0 HP. destruct (K2 _ HP) as (q & Q1 & Q2). destruct (P_here _ _ Q1) as [[G ->]|[r0 ->]].
    - right. split; [exact G|]. eapply xv_end; exact Q2.
    - left. eapply xv_other; eassumption.
  Qed.
  Lemma w_xvalues l s : x_values src l s -> s = st -> S l /\ forall l0, P l l0 -> x_values src l0 st \/ gone /\ x_values src l0 AtEnd.
  Proof.
    induction 1 as [l l1 s H1 H2|l l1 v l2 r H1 H2 H3|l l1 v l2 c l3 r s H1 H2 H3 H4 _ IH]; intros E; [subst s|discriminate E|].
    - destruct (w_xvalue _ H2) as [K1 K2]. destruct (w_skip _ _ H1 K1) as [K3 K4]. split; [exact K3|]. intros l0 HP.
      destruct (K4 _ HP) as (q & Q1 & Q2). destruct (K2 _ Q1) as [Q3|[G Q3]]; [left|right; split; [exact G|]]; eapply xvs_value; eassumption.
    - destruct (IH E) as [K7 K8]. destruct (w_skip _ _ H3 (S_tok _ _ K7)) as [K1 K2]. destruct (w_value _ _ _ _ H2 K1) as [K3 K4].
      destruct (w_skip _ _ H1 K3) as [K5 K6].
      split; [exact K5|]. intros l0 HP. destruct (K6 _ HP) as (q & Q1 & Q2). destruct (K4 _ Q1) as (q1 & Q3 & Q4). destruct (K2 _ Q3) as (q2 & Q5 & Q6).
      step Q5 K7. destruct (K8 _ HP0) as [Q7|[G Q7]]; [left|right; split; [exact G|]]; eapply xvs_more; eassumption.
  Qed.
  (** the same breaking off inside a body that has begun *)
  Lemma cut_body l : cut_items false l -> x_body src resumes0 l AtEnd.
  Proof. intros (its & l1 & r & H1 & H2). eapply xb; eassumption. Qed.
  Lemma w_xbody :
    (forall l s, x_body src resumes l s -> s = st -> S l /\ forall l0, P l l0 -> x_body src resumes0 l0 st \/ gone /\ x_body src resumes0 l0 AtEnd)
    /\ (forall l s, x_item src resumes l s -> s = st -> S l /\ forall l0, P l l0 -> x_item src resumes0 l0 st \/ gone /\ x_item src resumes0 l0 AtEnd).
  Proof.
    apply x_body_item_ind.
    - intros l its l1 r s H _ IH E. destruct (IH E) as [K1 K2]. destruct (proj2 w_items _ _ _ _ _ H K1) as [K3 K4]. split; [exact K3|].
      intros l0 HP. destruct (K4 _ HP) as [(q & Q1 & Q2)|[G Q1]]; [|right; split; [exact G|apply cut_body, Q1]].
      destruct (K2 _ Q1) as [Q3|[G Q3]]; [left|right; split; [exact G|]]; eapply xb; eassumption.
    - intros E; discriminate E.
    - intros d l s Hd H ->. destruct (w_one _ _ _ H) as [K1 K2]. split; [auto|]. intros l0 HP. step HP K1.
      destruct (K2 _ HP0) as [Q|[G Q]]; [left|right; split; [exact G|]]; apply xi_delete_node; assumption.
    - intros d l s Hd H ->. destruct (w_one _ _ _ H) as [K1 K2]. split; [auto|]. intros l0 HP. step HP K1.
      destruct (K2 _ HP0) as [Q|[G Q]]; [left|right; split; [exact G|]]; apply xi_delete_property; assumption.
    - intros d _ E; discriminate E.
    - intros l o x s _ _ E; discriminate E.
    - intros l o l1 lb r x l2 Ho Hl Hn E. injection E as -> <-. destruct (w_label _ _ _ _ Hl (S_here _)) as [K1 K2].
      destruct (w_omit _ _ _ Ho K1) as [K3 K4]. split; [exact K3|]. intros l0 HP. destruct (K4 _ HP) as (q & Q1 & Q2). destruct (K2 _ Q1) as (q1 & Q3 & Q4).
      destruct (P_here _ _ Q3) as [[G ->]|[r0 ->]].
      + right. split; [exact G|]. inv Q4; [|eapply xi_label; eassumption]. inv Q2; [apply xi_end|apply xi_omit; assumption].
      + left. eapply xi_other; eassumption.
    - intros l o l1 lb r x s l2 s' Ho Hl Hx H ->. destruct (w_one _ _ _ H) as [K1 K2]. destruct (w_lead _ _ _ _ _ _ _ Ho Hl K1) as [K3 K4].
      split; [exact K3|]. intros l0 HP. destruct (K4 _ HP) as (l10 & l20 & Q1 & Q2 & Q3).
      destruct (K2 _ Q3) as [Q|[G Q]]; [left|right; split; [exact G|]]; eapply xi_name; eassumption.
    - intros l o l1 lb r x s q l2 s' Ho Hl Hx Hq H ->. destruct (w_xvalues _ _ H eq_refl) as [K1 K2].
      destruct (w_lead2 _ _ _ _ _ _ _ _ Ho Hl K1) as [K3 K4]. split; [exact K3|]. intros l0 HP. destruct (K4 _ HP) as (l10 & l20 & Q1 & Q2 & Q3).
      destruct (K2 _ Q3) as [Q|[G Q]]; [left|right; split; [exact G|]]; eapply xi_values; eassumption.
    - intros l o l1 lb r x s b l2 s' Ho Hl Hx Hb _ IH E. destruct (IH E) as [K1 K2].
      destruct (w_lead2 _ _ _ _ _ _ _ _ Ho Hl K1) as [K3 K4]. split; [exact K3|]. intros l0 HP. destruct (K4 _ HP) as (l10 & l20 & Q1 & Q2 & Q3).
      destruct (K2 _ Q3) as [Q|[G Q]]; [left|right; split; [exact G|]]; eapply xi_node; eassumption.
  Qed.
  Lemma w_block l : x_block src resumes l st -> S l /\ forall l0, P l l0 -> x_block src resumes0 l0 st \/ gone /\ x_block src resumes0 l0 AtEnd.
  Proof.
    intros H. inversion H as [l1 s H1|b l1 s Hb H1]; subst; clear H.
    - destruct (w_one _ _ _ H1) as [K1 K2]. split; [exact K1|]. intros l0 HP.
      destruct (K2 _ HP) as [Q|[G Q]]; [left|right; split; [exact G|]]; apply xk_brace; exact Q.
    - destruct (proj1 w_xbody _ _ H1 eq_refl) as [K1 K2]. split; [auto|]. intros l0 HP. step HP K1.
      destruct (K2 _ HP0) as [Q|[G Q]]; [left|right; split; [exact G|]]; apply xk_body; assumption.
  Qed.
  Lemma w_xprimary l : x_primary src resumes l st -> S l /\ forall l0, P l l0 ->
    x_primary src resumes0 l0 st \/ gone /\ (l0 = [] \/ x_primary src resumes0 l0 AtEnd).
  Proof.
    intros H. inversion H as [x l1 Hx|x l1 s Hx H1|x a n r l1 s Hx Ha H1|x l1 s Hx H1|x l1 s Hx H1|x y ds l1 s Hx H1|x l1 s Hx H1]; subst; clear H.
    - split; [apply S_here|]. intros l0 HP. destruct (P_here _ _ HP) as [[G ->]|[r0 ->]]; [auto|]. left. apply xp_other. assumption.
    - destruct (w_one _ _ _ H1) as [K1 K2]. split; [auto|]. intros l0 HP. step HP K1.
      destruct (K2 _ HP0) as [Q|[G Q]]; [left|right; split; [exact G|right]]; apply xp_address; assumption.
    - destruct (w_one _ _ _ H1) as [K1 K2]. split; [auto|]. intros l0 HP. step HP (S_tok a _ K1). step HP0 K1.
      destruct (K2 _ HP1) as [Q|[G Q]]; [left|right; split; [exact G|right]]; eapply xp_length; eassumption.
    - destruct (w_one _ _ _ H1) as [K1 K2]. split; [auto|]. intros l0 HP. step HP K1.
      destruct (K2 _ HP0) as [Q|[G Q]]; [left|right; split; [exact G|right]]; apply xp_include; assumption.
    - destruct (w_block _ H1) as [K1 K2]. split; [auto|]. intros l0 HP. step HP K1.
      destruct (K2 _ HP0) as [Q|[G Q]]; [left|right; split; [exact G|right]]; apply xp_root; assumption.
    - destruct (w_block _ H1) as [K1 K2]. split; [auto|]. intros l0 HP. step HP K1.
      destruct (K2 _ HP0) as [Q|[G Q]]; [left|right; split; [exact G|right]]; eapply xp_ref_node; eassumption.
    - destruct (w_one _ _ _ H1) as [K1 K2]. split; [auto|]. intros l0 HP. step HP K1.
      destruct (K2 _ HP0) as [Q|[G Q]]; [left|right; split; [exact G|right]]; apply xp_reference; assumption.
  Qed.
  Lemma w_file l s : x_file src incl resumes l s -> s = st -> S l /\ forall l0, P l l0 ->
    x_file src incl resumes0 l0 st \/ gone /\ ((exists ps r, k_file src incl resumes0 l0 ps r) \/ x_file src incl resumes0 l0 AtEnd).
  Proof.
    induction 1 as [l s H|l p l' r s H _ IH]; intros E; [subst s|].
    - destruct (w_xprimary _ H) as [K1 K2]. split; [exact K1|]. intros l0 HP. destruct (K2 _ HP) as [Q|[G [->|Q]]].
      + left. apply xf_here, Q.
      + right. split; [exact G|]. left. exists [], []. constructor.
      + right. split; [exact G|]. right. apply xf_here, Q.
    - destruct (IH E) as [K1 K2]. destruct (w_primary _ _ _ _ H K1) as [K3 K4]. split; [exact K3|]. intros l0 HP.
      destruct (K4 _ HP) as [(q & Q1 & Q2)|[G Q]]; [|right; split; [exact G|]; right; apply xf_here, Q].
      destruct (K2 _ Q1) as [Q|[G [(ps & r0 & Q)|Q]]].
      + left. eapply xf_later; eassumption.
      + right. split; [exact G|]. left. eexists _, _. eapply kf_cons; eassumption.
      + right. split; [exact G|]. right. eapply xf_later; eassumption.
  Qed.
End Swap.
