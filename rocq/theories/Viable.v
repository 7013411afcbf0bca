(** Texts that end too early: whatever mistakes were passed over, some words behind them make a text that gives a tree *)
From Verif Require Import Parser LexSpec Utf8 LexerProofs Grammar NameProofs NumProofs ParserSafe TokParser ParserSim GrammarComplete GrammarSound
  Utf8Adequacy NameReport NumReport Forgiving Rejected Complete.

Definition words (ks : list token_kind) (z : list token) : Prop := map tk_kind z = ks.
Lemma words_cons k ks z : words (k :: ks) z -> exists t z1, z = t :: z1 /\ is k t /\ words ks z1.
Proof. unfold words. destruct z as [|t z]; [discriminate|]. intros H. injection H as H1 H2. exists t, z. auto. Qed.
Lemma words_nil z : words [] z -> z = [].
Proof. unfold words. destruct z; [reflexivity|discriminate]. Qed.
Lemma words_app ks ks' z : words (ks ++ ks') z -> exists z1 z2, z = z1 ++ z2 /\ words ks z1 /\ words ks' z2.
Proof.
  revert z. induction ks as [|k ks IH]; intros z H; [exists [], z; split; [reflexivity|]; split; [reflexivity|exact H]|].
  apply words_cons in H. destruct H as (t & z1 & -> & Ht & H). destruct (IH _ H) as (a & b & -> & Ha & Hb). exists (t :: a), b.
  split; [reflexivity|]. split; [unfold words in *; cbn [map]; rewrite Ha, Ht; reflexivity|exact Hb].
Qed.
(** the words used *)
Definition helpful (k : token_kind) : Prop := word k \/ k = CloseParen.
(** such a token does not change what stands in front of it *)
Definition modest (k : token_kind) : Prop := match k with Label _ | Semicolon | Unknown _ | Directive Bits => False | _ => True end.
Definition opens_well (ks : list token_kind) : Prop := exists k r, ks = k :: r /\ modest k.
Definition fine (z : list token) : Prop := forall t r, z = t :: r -> modest (tk_kind t).
Lemma fine_words ks z z' : opens_well ks -> words ks z -> fine (z ++ z').
Proof.
  intros (k & r & -> & Hk) H. apply words_cons in H. destruct H as (t & z1 & -> & Ht & _). intros u q E. injection E as <- _. rewrite Ht. exact Hk.
Qed.
Lemma fine_cons t z : modest (tk_kind t) -> fine (t :: z).
Proof. intros H u r E. injection E as <- _. exact H. Qed.

(** ** More tokens behind *)
Section More.
  Context (src : fpath) (incl : list fpath) (resumes : token -> list token -> Prop) (P : token -> Prop).
  Definition fits (R : token -> list token -> Prop) (z : list token) : Prop := forall u l, P u -> resumes u l -> Forall P l /\ R u (l ++ z).

  Section Behind.
    Context (R : token -> list token -> Prop) (z : list token) (Hz : fine z) (HR : fits R z).
    Ltac inv H := inversion H; subst; clear H.
    Lemma e_skip l l1 : k_skip l l1 -> Forall P l -> Forall P l1 /\ k_skip (l ++ z) (l1 ++ z).
    Proof.
      intros [l0 H|t s l0 Ht] HP; [|inv HP; split; [assumption|]; cbn [app]; eapply ks_label; exact Ht]. split; [exact HP|]. apply ks_none.
      destruct l0 as [|t l0]; [|intros u r s E; injection E as <- _; exact (H _ _ s eq_refl)].
      intros u r s E K. pose proof (Hz _ _ E) as M. rewrite K in M. exact M.
    Qed.
    Lemma e_parens l l1 : parens l l1 -> Forall P l -> Forall P l1 /\ parens (l ++ z) (l1 ++ z).
    Proof.
      induction 1 as [l|t l l' H1 H2 _ IH|t l u l' l'' H1 H2 _ IH1 _ IH2]; intros HP; [split; [exact HP|constructor]|inv HP|inv HP].
      - destruct IH; [assumption|]. split; [assumption|]. cbn [app]. apply pa_token; assumption.
      - destruct IH1 as [K1 K2]; [assumption|]. inv K1. destruct IH2; [assumption|]. split; [assumption|]. cbn [app]. eapply pa_nest; eassumption.
    Qed.
    Lemma e_cell l c l1 r : k_cell src l c l1 r -> Forall P l -> Forall P l1 /\ k_cell src (l ++ z) c (l1 ++ z) r.
    Proof.
      intros [t n l0 r0 H|t x l0 ds H|t l0 u l' H1 H2 H3] HP; inv HP.
      - split; [assumption|]. apply kc_number, H.
      - split; [assumption|]. apply kc_reference, H.
      - destruct (e_parens _ _ H3) as [K1 K2]; [assumption|]. inv K1. split; [assumption|]. eapply kc_expression; eassumption.
    Qed.
    Lemma e_cells l cs e l1 r : k_cells src l cs e l1 r -> Forall P l -> Forall P l1 /\ k_cells src (l ++ z) cs e (l1 ++ z) r.
    Proof.
      induction 1 as [l t l' H1 H2|l l1 c l2 r cs t l' r' H1 H2 _ IH|l b l2 cs t l' r' H1 H2 _ IH]; intros HP;
        destruct (e_skip _ _ H1 HP) as [K1 K2]; try inv K1.
      - split; [assumption|]. apply kcs_nil; assumption.
      - destruct (e_cell _ _ _ _ H2) as [K3 K4]; [constructor; assumption|]. destruct (IH K3) as [K5 K6]. split; [exact K5|]. eapply kcs_cons; eassumption.
      - destruct (e_cell _ _ _ _ H2) as [K3 K4]; [constructor; assumption|]. destruct (IH K3) as [K5 K6]. split; [exact K5|]. eapply kcs_cons; eassumption.
      - destruct IH as [K5 K6]; [assumption|]. split; [exact K5|]. eapply kcs_other; eassumption.
    Qed.
    Lemma e_bytes l ws e l1 r : k_bytes l ws e l1 r -> Forall P l -> Forall P l1 /\ k_bytes (l ++ z) ws e (l1 ++ z) r.
    Proof.
      induction 1 as [l t l' H1 H2|l e0 b l2 r ws t l' r' H1 H2 _ IH]; intros HP; destruct (e_skip _ _ H1 HP) as [K1 K2]; inv K1.
      - split; [assumption|]. apply kbs_nil; assumption.
      - destruct IH as [K5 K6]; [assumption|]. split; [exact K5|]. eapply kbs_cons; eassumption.
    Qed.
    Lemma e_bits l l1 r : k_bits l l1 r -> Forall P l -> Forall P l1 /\ k_bits (l ++ z) (l1 ++ z) r.
    Proof.
      intros [l0 H|d t s l0 H1 H2|d t l0 H1 H2] HP; [|inv HP; match goal with K : Forall P (_ :: _) |- _ => inv K end..].
      - split; [exact HP|]. apply kb_none. destruct l0 as [|t l0]; [|intros u q E; injection E as <- _; exact (H _ _ eq_refl)].
        intros u q E K. pose proof (Hz _ _ E) as M. rewrite K in M. exact M.
      - split; [assumption|]. cbn [app]. eapply kb_width; eassumption.
      - split; [assumption|]. cbn [app]. eapply kb_other; eassumption.
    Qed.
    Lemma e_value l v l1 r : k_value src l v l1 r -> Forall P l -> Forall P l1 /\ k_value src (l ++ z) v (l1 ++ z) r.
    Proof.
      intros [l0 t s l' r0 H1 H2|l0 t x l' r0 ds H1 H2|l0 t l2 cs e l' r0 r' H1 H2 H3|l0 t l2 ws e l' r0 r' H1 H2 H3] HP;
        destruct (e_bits _ _ _ H1 HP) as [K1 K2]; inv K1.
      - split; [assumption|]. eapply kv_string; eassumption.
      - split; [assumption|]. eapply kv_reference; eassumption.
      - destruct (e_cells _ _ _ _ _ H3) as [K3 K4]; [assumption|]. split; [assumption|]. eapply kv_cells; eassumption.
      - destruct (e_bytes _ _ _ _ _ H3) as [K3 K4]; [assumption|]. split; [assumption|]. eapply kv_bytes; eassumption.
    Qed.
    Lemma e_values l vs l1 r : k_values src l vs l1 r -> Forall P l -> Forall P l1 /\ k_values src (l ++ z) vs (l1 ++ z) r.
    Proof.
      induction 1 as [l l1 v l2 t l3 r H1 H2 H3 H4|l l1 v l2 c l3 r vs l' r' H1 H2 H3 H4 _ IH]; intros HP;
        destruct (e_skip _ _ H1 HP) as [K1 K2]; destruct (e_value _ _ _ _ H2 K1) as [K3 K4]; destruct (e_skip _ _ H3 K3) as [K5 K6].
      - split; [exact K5|]. eapply kvs_one; eassumption.
      - inv K5. destruct IH as [K7 K8]; [assumption|]. split; [assumption|]. eapply kvs_cons; eassumption.
    Qed.
    Lemma e_end l e l1 r : k_end resumes l e l1 r -> Forall P l -> Forall P l1 /\ k_end R (l ++ z) e (l1 ++ z) r.
    Proof.
      intros [t l0 H|l0 H|u c l0 l' H1 H2] HP.
      - inv HP. split; [assumption|]. apply ke_semicolon, H.
      - split; [exact HP|]. apply ke_missing. destruct l0 as [|t l0]; [|intros u q E; injection E as <- _; exact (H _ _ eq_refl)].
        intros u q E. pose proof (Hz _ _ E) as M. split; [intros K|intros c K]; rewrite K in M; exact M.
      - inv HP. destruct (HR _ _ ltac:(eassumption) H2) as [K1 K2]. split; [exact K1|]. cbn [app]. eapply ke_unknown; eassumption.
    Qed.
    Lemma e_label l lb l1 r : k_label src l lb l1 r -> Forall P l -> Forall P l1 /\ k_label src (l ++ z) lb (l1 ++ z) r.
    Proof. intros [l0|t s l0 ds H1 H2] HP; [split; [exact HP|apply kl_none]|]. inv HP. split; [assumption|]. apply kl_some; assumption. Qed.
    Lemma e_omit l o l1 : g_omit l o l1 -> Forall P l -> Forall P l1 /\ g_omit (l ++ z) o (l1 ++ z).
    Proof. intros [l0|t l0 H] HP; [split; [exact HP|apply go_none]|]. inv HP. split; [assumption|]. apply go_some; assumption. Qed.
    Lemma e_body_items :
      (forall l pl l1 r, k_body src resumes l pl l1 r -> Forall P l -> Forall P l1 /\ k_body src R (l ++ z) pl (l1 ++ z) r)
      /\ (forall seen l its l1 r, k_items src resumes seen l its l1 r -> Forall P l -> Forall P l1 /\ k_items src R seen (l ++ z) its (l1 ++ z) r).
    Proof.
      apply (k_body_items_ind src resumes
        (fun l pl l1 r _ => Forall P l -> Forall P l1 /\ k_body src R (l ++ z) pl (l1 ++ z) r)
        (fun seen l its l1 r _ => Forall P l -> Forall P l1 /\ k_items src R seen (l ++ z) its (l1 ++ z) r)).
      - intros l its r l1 o l2 lb rl c l3 e l4 re _ IH H1 H2 Hc H3 HP. destruct (IH HP) as [K1 K2]. destruct (e_omit _ _ _ H1 K1) as [K3 K4].
        destruct (e_label _ _ _ _ H2 K3) as [K5 K6]. inv K5. destruct (e_end _ _ _ _ H3) as [K7 K8]; [assumption|]. split; [exact K7|]. eapply kbo; eassumption.
      - intros seen l HP. split; [exact HP|constructor].
      - intros seen d t s nm ds l e l1 re its l2 r H1 H2 H3 H4 H5 _ IH HP. inv HP. match goal with K : Forall P (_ :: _) |- _ => inv K end.
        destruct (e_end _ _ _ _ H5) as [K1 K2]; [assumption|]. destruct (IH K1) as [K3 K4]. split; [exact K3|]. cbn [app]. eapply ki_delete_node; eassumption.
      - intros seen d t s ds l e l1 re its l2 r H1 H2 H3 H5 _ IH HP. inv HP. match goal with K : Forall P (_ :: _) |- _ => inv K end.
        destruct (e_end _ _ _ _ H5) as [K1 K2]; [assumption|]. destruct (IH K1) as [K3 K4]. split; [exact K3|]. cbn [app]. eapply ki_delete_property; eassumption.
      - intros seen l o l0 lb rl t s ds q l1 vs l2 rv e l3 re its l4 r H1 H2 H3 H4 H5 H6 H7 _ IH HP.
        destruct (e_omit _ _ _ H1 HP) as [K1 K2]. destruct (e_label _ _ _ _ H2 K1) as [K3 K4]. inv K3. match goal with K : Forall P (_ :: _) |- _ => inv K end.
        destruct (e_values _ _ _ _ H6) as [K5 K6]; [assumption|]. destruct (e_end _ _ _ _ H7 K5) as [K7 K8]. destruct (IH K7) as [K9 K10].
        split; [exact K9|]. eapply ki_property; [exact K2|exact K4|exact H3|exact H4|exact H5|exact K6|exact K8|exact K10].
      - intros seen l o l0 lb rl t s ds e l1 its l2 r H1 H2 H3 H4 H5 _ IH HP.
        destruct (e_omit _ _ _ H1 HP) as [K1 K2]. destruct (e_label _ _ _ _ H2 K1) as [K3 K4]. inv K3. match goal with K : Forall P (_ :: _) |- _ => inv K end.
        destruct IH as [K9 K10]; [assumption|]. split; [exact K9|]. eapply ki_empty_property; [exact K2|exact K4|exact H3|exact H4|exact H5|exact K10].
      - intros seen l o l1 lb rl t s nm ds b l2 pl l3 rb its l4 r H1 H2 H3 H4 H5 H6 _ IH1 _ IH2 HP.
        destruct (e_omit _ _ _ H1 HP) as [K1 K2]. destruct (e_label _ _ _ _ H2 K1) as [K3 K4]. inv K3. match goal with K : Forall P (_ :: _) |- _ => inv K end.
        destruct IH1 as [K5 K6]; [assumption|]. destruct (IH2 K5) as [K9 K10]. split; [exact K9|]. eapply ki_node; [exact K2|exact K4|exact H3|exact H4|exact H5|exact H6|exact K6|exact K10].
    Qed.
    Lemma e_primary l p l1 r : k_primary src incl resumes l p l1 r -> Forall P l -> Forall P l1 /\ k_primary src incl R (l ++ z) p (l1 ++ z) r.
    Proof.
      intros H HP. destruct H; inv HP; repeat match goal with K : Forall P (_ :: _) |- _ => inv K end; cbn [app];
        try (match goal with K : k_end _ _ _ _ _ |- _ => destruct (e_end _ _ _ _ K) as [K1 K2]; [assumption|] end);
        try (match goal with K : k_body _ _ _ _ _ _ |- _ => destruct (proj1 e_body_items _ _ _ _ K) as [K1 K2]; [assumption|] end);
        try (split; [assumption|econstructor; eassumption]).
      split; [assumption|]. eapply kp_include; [eassumption|eassumption|].
      match goal with K : forall u r, l = _ -> _ |- _ => rename K into Hi end.
      destruct l as [|t0 l]; [|intros u q E; injection E as <- _; exact (Hi _ _ eq_refl)].
      intros u q E K. pose proof (Hz _ _ E) as M. rewrite K in M. exact M.
    Qed.
  End Behind.

  (** ** Words that complete *)
  Context (P_ok : forall t, P t -> tok_ok t).
  Definition mends (Q : (token -> list token -> Prop) -> list token -> list token -> Prop) : Prop := exists ks,
    opens_well ks /\ Forall helpful ks /\ forall z z' R, words ks z -> fits R (z ++ z') -> Q R (z ++ z') z'.
  Ltac help := repeat (apply Forall_cons; [first [right; reflexivity|left; unfold word; cbn [In]; tauto]|]); try apply Forall_nil.
  Ltac opens := eexists _, _; split; [reflexivity|exact I].
  Lemma mends_map (Q Q' : (token -> list token -> Prop) -> list token -> list token -> Prop) : mends Q ->
    (forall R w z', fine w -> fits R w -> Q R w z' -> Q' R w z') -> mends Q'.
  Proof.
    intros (ks & H1 & H2 & H3) H. exists ks. split; [exact H1|]. split; [exact H2|]. intros z z' R Hw HR.
    apply H; [eapply fine_words; eassumption|exact HR|apply H3; assumption].
  Qed.
  (** and words behind *)
  Lemma mends_more (Q Q' : (token -> list token -> Prop) -> list token -> list token -> Prop) ks2 : mends Q -> Forall helpful ks2 ->
    (forall R w z2 z', fine w -> fits R w -> words ks2 z2 -> Q R w (z2 ++ z') -> Q' R w z') -> mends Q'.
  Proof.
    intros (ks & H1 & H2 & H3) Hh H. exists (ks ++ ks2). destruct H1 as (k & r & -> & Hk).
    split; [exists k, (r ++ ks2); split; [reflexivity|exact Hk]|]. split; [apply Forall_app; split; assumption|]. intros z z' R Hw HR.
    assert (Hf : fine (z ++ z')) by (eapply fine_words; [exists k, (r ++ ks2); split; [reflexivity|exact Hk]|exact Hw]).
    destruct (words_app _ _ _ Hw) as (z1 & z2 & -> & W1 & W2). rewrite <- app_assoc in *. eapply H; [exact Hf|exact HR|exact W2|].
    apply H3; [exact W1|exact HR].
  Qed.
  Lemma mends_one (Q : (token -> list token -> Prop) -> list token -> list token -> Prop) k : modest k -> helpful k ->
    (forall R t z', is k t -> fine (t :: z') -> fits R (t :: z') -> Q R (t :: z') z') -> mends Q.
  Proof.
    intros Hm Hh H. exists [k]. split; [exists k, []; auto|]. split; [constructor; [exact Hh|constructor]|]. intros z z' R W HR.
    apply words_cons in W. destruct W as (t & z1 & -> & Ht & W). apply words_nil in W. subst z1. cbn [app] in *. apply H; [exact Ht| |exact HR].
    apply fine_cons. rewrite Ht. exact Hm.
  Qed.

  (** parentheses *)
  Definition closed (l : list token) : Prop := exists u r, is CloseParen u /\ parens l (u :: r).
  Definition closable (l : list token) : Prop := exists ks, Forall (eq CloseParen) ks
    /\ forall z z' u, words ks z -> is CloseParen u -> parens (l ++ z ++ u :: z') (u :: z').
  Lemma parens_behind l l1 z : parens l l1 -> parens (l ++ z) (l1 ++ z).
  Proof.
    induction 1 as [l|t l l' H1 H2 _ IH|t l u l' l'' H1 H2 _ IH1 _ IH2]; [constructor|cbn [app]; apply pa_token; assumption|cbn [app] in *; eapply pa_nest; eassumption].
  Qed.
  Lemma parens_short l l1 : parens l l1 -> (length l1 <= length l)%nat.
  Proof. induction 1; cbn [length] in *; lia. Qed.
  Lemma parens_either n : forall l, (length l <= n)%nat -> closed l \/ closable l.
  Proof.
    induction n as [|n IH]; intros l Hl; (destruct l as [|t l]; [right; exists []; split; [constructor|]; intros z z' u W Hu; apply words_nil in W; subst z; apply pa_nil|]);
      cbn [length] in Hl; [lia|].
    destruct (kind_eqb_spec (tk_kind t) CloseParen) as [E|E]; [left; exists t, l; split; [exact E|apply pa_nil]|].
    destruct (kind_eqb_spec (tk_kind t) OpenParen) as [E2|E2].
    - destruct (IH l) as [(u & r & Hu & Hp)|(ks & Hk & Hp)]; [lia| |].
      + pose proof (parens_short _ _ Hp) as L. cbn [length] in L. destruct (IH r) as [(u2 & r2 & Hu2 & Hp2)|(ks & Hk & Hp2)]; [lia| |].
        * left. exists u2, r2. split; [exact Hu2|]. eapply pa_nest; [exact E2|exact Hu|exact Hp|exact Hp2].
        * right. exists ks. split; [exact Hk|]. intros z z' v W Hv. cbn [app]. eapply pa_nest; [exact E2|exact Hu| |apply Hp2; eassumption].
          exact (parens_behind _ _ (z ++ v :: z') Hp).
      + right. exists (ks ++ [CloseParen]). split; [apply Forall_app; split; [exact Hk|constructor; [reflexivity|constructor]]|].
        intros z z' v W Hv. apply words_app in W. destruct W as (z1 & z2 & -> & W1 & W2). apply words_cons in W2. destruct W2 as (u & z3 & -> & Hu & W3).
        apply words_nil in W3. subst z3. rewrite <- app_assoc. cbn [app]. eapply pa_nest; [exact E2|exact Hu|apply (Hp z1 (v :: z') u W1 Hu)|apply pa_nil].
    - destruct (IH l) as [(u & r & Hu & Hp)|(ks & Hk & Hp)]; [lia| |].
      + left. exists u, r. split; [exact Hu|]. apply pa_token; assumption.
      + right. exists ks. split; [exact Hk|]. intros z z' v W Hv. cbn [app]. apply pa_token; [exact E2|exact E|apply Hp; assumption].
  Qed.

  Ltac inv H := inversion H; subst; clear H.
  Lemma m_cells l : x_cells src l -> Forall P l -> mends (fun _ w z' => exists cs e r, k_cells src (l ++ w) cs e z' r).
  Proof.
    induction 1 as [l H|l l1 c l2 r H1 H2 _ IH|l b l2 H1 H2 _ IH|l t l1 H1 H2 H3]; intros HP.
    - apply (mends_one _ ChevronRight); [exact I|left; unfold word; cbn [In]; tauto|]. intros R t z' Ht Hf _.
      exists [], t, []. apply kcs_nil; [|exact Ht]. exact (proj2 (e_skip _ Hf _ _ H HP)).
    - assert (G : Forall P l2).
      { destruct (e_skip [] ltac:(intros ? ? K; discriminate K) _ _ H1 HP) as [K1 _]. exact (proj1 (e_cell [] _ _ _ _ H2 K1)). }
      eapply mends_map; [exact (IH G)|]. intros R w z' Hf _ (cs & e & r' & K). exists (c :: cs), e, (r ++ r').
      destruct (e_skip _ Hf _ _ H1 HP) as [K1 K2]. eapply kcs_cons; [exact K2|exact (proj2 (e_cell _ _ _ _ _ H2 K1))|exact K].
    - assert (G : Forall P l2).
      { destruct (e_skip [] ltac:(intros ? ? K; discriminate K) _ _ H1 HP) as [K1 _]. inv K1. assumption. }
      eapply mends_map; [exact (IH G)|]. intros R w z' Hf _ (cs & e & r' & K). eexists cs, e, _. eapply kcs_other; [exact (proj2 (e_skip _ Hf _ _ H1 HP))|exact H2|exact K].
    - destruct (parens_either _ l1 (le_n _)) as [(u & r & Hu & Hp)|(ks & Hk & Hp)].
      + pose proof (H3 _ _ Hu Hp) as ->. apply (mends_one _ ChevronRight); [exact I|left; unfold word; cbn [In]; tauto|]. intros R v z' Hv Hf _.
        eexists [CExpression], v, _. eapply kcs_cons; [exact (proj2 (e_skip _ Hf _ _ H1 HP))|eapply kc_expression; [exact H2|exact Hu|exact (parens_behind _ _ (v :: z') Hp)]|].
        apply kcs_nil; [|exact Hv]. apply ks_none. intros x q s E K. injection E as E _. subst x. discriminate (eq_trans (eq_sym Hv) K).
      + exists (ks ++ [CloseParen; ChevronRight]). split; [|split].
        * destruct ks as [|k ks]; [opens|]. inv Hk. opens.
        * apply Forall_app. split; [|help]. eapply Forall_impl; [|exact Hk]. intros a <-. right. reflexivity.
        * intros z z' R W _. pose proof W as W0. apply words_app in W. destruct W as (z1 & z2 & -> & W1 & W2).
          apply words_cons in W2. destruct W2 as (u & z3 & -> & Hu & W2). apply words_cons in W2. destruct W2 as (v & z4 & -> & Hv & W2). apply words_nil in W2. subst z4.
          assert (Hf : fine ((z1 ++ [u; v]) ++ z')) by (eapply fine_words; [|exact W0]; destruct ks as [|k ks]; [opens|inv Hk; opens]).
          eexists [CExpression], v, _. eapply kcs_cons; [exact (proj2 (e_skip _ Hf _ _ H1 HP))|eapply kc_expression; [exact H2|exact Hu|]|].
          -- cbn [app]. rewrite <- app_assoc. cbn [app]. exact (Hp z1 (v :: z') u W1 Hu).
          -- apply kcs_nil; [|exact Hv]. apply ks_none. intros x q s E K. injection E as E _. subst x. discriminate (eq_trans (eq_sym Hv) K).
  Qed.
  Lemma m_bytes l : x_bytes l -> Forall P l -> mends (fun _ w z' => exists ws e r, k_bytes (l ++ w) ws e z' r).
  Proof.
    induction 1 as [l H|l e0 b l2 r H1 H2 _ IH]; intros HP.
    - apply (mends_one _ CloseBracket); [exact I|left; unfold word; cbn [In]; tauto|]. intros R t z' Ht Hf _.
      exists [], t, []. apply kbs_nil; [|exact Ht]. exact (proj2 (e_skip _ Hf _ _ H HP)).
    - assert (G : Forall P l2).
      { destruct (e_skip [] ltac:(intros ? ? K; discriminate K) _ _ H1 HP) as [K1 _]. inv K1. assumption. }
      eapply mends_map; [exact (IH G)|]. intros R w z' Hf _ (ws & e & r' & K). eexists _, e, _. eapply kbs_cons; [exact (proj2 (e_skip _ Hf _ _ H1 HP))|exact H2|exact K].
  Qed.
  Lemma m_value l : x_value src l AtEnd -> Forall P l -> mends (fun _ w z' => exists v r, k_value src (l ++ w) v z' r).
  Proof.
    intros H HP. assert (F0 : fine []) by (intros ? ? K; discriminate K). inversion H as [d Hd|l0 r Hb|l0 t l1 r Hb Ht Hx|l0 t l1 r Hb Ht Hx|]; subst.
    - exists [w_number; w_string]. split; [opens|]. split; [help|]. intros z z' R W _.
      apply words_cons in W. destruct W as (u & z3 & -> & Hu & W). apply words_cons in W. destruct W as (v & z4 & -> & Hv & W). apply words_nil in W. subst z4.
      cbn [app]. eexists _, _. eapply kv_string; [eapply kb_width; [exact Hd|exact Hu]|exact Hv].
    - apply (mends_one _ w_string); [exact I|left; unfold word; cbn [In]; tauto|]. intros R t z' Ht Hf _. eexists _, _.
      eapply kv_string; [exact (proj2 (e_bits _ Hf _ _ _ Hb HP))|exact Ht].
    - assert (G : Forall P l1) by (destruct (e_bits [] F0 _ _ _ Hb HP) as [K1 _]; inv K1; assumption).
      eapply mends_map; [exact (m_cells _ Hx G)|]. intros R w z' Hf _ (cs & e & r' & K). eexists _, _. eapply kv_cells; [exact (proj2 (e_bits _ Hf _ _ _ Hb HP))|exact Ht|exact K].
    - assert (G : Forall P l1) by (destruct (e_bits [] F0 _ _ _ Hb HP) as [K1 _]; inv K1; assumption).
      eapply mends_map; [exact (m_bytes _ Hx G)|]. intros R w z' Hf _ (cs & e & r' & K). eexists _, _. eapply kv_bytes; [exact (proj2 (e_bits _ Hf _ _ _ Hb HP))|exact Ht|exact K].
  Qed.
  (** up to a closing brace *)
  Lemma brace_skip c (l : list token) : is CloseBrace c -> k_skip (c :: l) (c :: l).
  Proof. intros Hc. apply ks_none. intros x q s E K. injection E as E _. subst x. discriminate (eq_trans (eq_sym Hc) K). Qed.
  Lemma m_values l st : x_values src l st -> st = AtEnd -> Forall P l ->
    mends (fun _ w z' => exists vs c r, is CloseBrace c /\ k_values src (l ++ w) vs (c :: z') r).
  Proof.
    assert (F0 : fine []) by (intros ? ? K; discriminate K).
    induction 1 as [l l1 st H1 H2|l l1 v l2 r H1 H2 H3|l l1 v l2 c l3 r st H1 H2 H3 H4 _ IH]; intros Es HP; destruct (e_skip [] F0 _ _ H1 HP) as [G1 _].
    - subst st. eapply (mends_more _ _ [CloseBrace]); [exact (m_value _ H2 G1)|help|]. intros R w z2 z' Hf _ W (v & r & K).
      apply words_cons in W. destruct W as (c & z3 & -> & Hc & W). apply words_nil in W. subst z3. cbn [app] in K. exists [v], c, r. split; [exact Hc|].
      eapply kvs_one; [exact (proj2 (e_skip _ Hf _ _ H1 HP))|exact K|apply brace_skip, Hc|intros Kc; discriminate (eq_trans (eq_sym Hc) Kc)].
    - apply (mends_one _ CloseBrace); [exact I|left; unfold word; cbn [In]; tauto|]. intros R c z' Hc Hf _. exists [v], c, r. split; [exact Hc|].
      destruct (e_value [] F0 _ _ _ _ H2 G1) as [G2 _].
      eapply kvs_one; [exact (proj2 (e_skip _ Hf _ _ H1 HP))|exact (proj2 (e_value _ Hf _ _ _ _ H2 G1))|exact (proj2 (e_skip _ Hf _ _ H3 G2))|intros Kc; discriminate (eq_trans (eq_sym Hc) Kc)].
    - destruct (e_value [] F0 _ _ _ _ H2 G1) as [G2 _]. destruct (e_skip [] F0 _ _ H3 G2) as [G3 _]. inv G3.
      eapply mends_map; [apply IH; [reflexivity|assumption]|]. intros R w z' Hf _ (vs & b & r' & Hb & K). eexists _, b, _. split; [exact Hb|].
      eapply kvs_cons; [exact (proj2 (e_skip _ Hf _ _ H1 HP))|exact (proj2 (e_value _ Hf _ _ _ _ H2 G1))|exact (proj2 (e_skip _ Hf _ _ H3 G2))|exact H4|exact K].
  Qed.

  (** the rest of a body *)
  Definition rest (R : token -> list token -> Prop) (seen : bool) (l l' : list token) : Prop := exists its l1 r o l2 lb rl c l3 e re,
    k_items src R seen l its l1 r /\ g_omit l1 o l2 /\ k_label src l2 lb (c :: l3) rl /\ is CloseBrace c /\ k_end R l3 e l' re.
  Lemma rest_body R l l' : rest R false l l' -> exists pl r, k_body src R l pl l' r.
  Proof. intros (its & l1 & r & o & l2 & lb & rl & c & l3 & e & re & H1 & H2 & H3 & H4 & H5). eexists _, _. eapply kbo; eassumption. Qed.
  Lemma rest_close R seen c e l' : is CloseBrace c -> is Semicolon e -> rest R seen (c :: e :: l') l'.
  Proof.
    intros Hc He. eexists [], (c :: e :: l'), [], None, (c :: e :: l'), None, [], c, (e :: l'), (Some e), []. split; [constructor|]. split; [constructor|].
    split; [constructor|]. split; [exact Hc|]. apply ke_semicolon, He.
  Qed.
  Lemma rest_items R seen l its l1 r l' : k_items src R seen l its l1 r -> (forall s, rest R s l1 l') -> rest R seen l l'.
  Proof.
    intros H Hr. revert Hr. 
    refine (proj2 (k_body_items_ind src R (fun _ _ _ _ _ => True) (fun seen l _ l1 _ _ => (forall s, rest R s l1 l') -> rest R seen l l') _ _ _ _ _ _ _) _ _ _ _ _ H); clear.
    - intros. exact I.
    - intros seen l Hr. apply Hr.
    - intros seen d t s nm ds l e l1 re its l2 r H1 H2 H3 H4 H5 _ IH Hr.
      destruct (IH Hr) as (its' & l1' & r' & o & l2' & lb & rl & c & l3 & e' & re' & K & K').
      eexists _, l1', _, o, l2', lb, rl, c, l3, e', re'. split; [eapply ki_delete_node; eassumption|exact K'].
    - intros seen d t s ds l e l1 re its l2 r H1 H2 H3 H5 _ IH Hr.
      destruct (IH Hr) as (its' & l1' & r' & o & l2' & lb & rl & c & l3 & e' & re' & K & K').
      eexists _, l1', _, o, l2', lb, rl, c, l3, e', re'. split; [eapply ki_delete_property; eassumption|exact K'].
    - intros seen l o0 l0 lb0 rl0 t s ds q l1 vs l2 rv e l3 re its l4 r H1 H2 H3 H4 H5 H6 H7 _ IH Hr.
      destruct (IH Hr) as (its' & l1' & r' & o & l2' & lb & rl & c & l3' & e' & re' & K & K').
      eexists _, l1', _, o, l2', lb, rl, c, l3', e', re'. split; [eapply ki_property; eassumption|exact K'].
    - intros seen l o0 l0 lb0 rl0 t s ds e l1 its l2 r H1 H2 H3 H4 H5 _ IH Hr.
      destruct (IH Hr) as (its' & l1' & r' & o & l2' & lb & rl & c & l3' & e' & re' & K & K').
      eexists _, l1', _, o, l2', lb, rl, c, l3', e', re'. split; [eapply ki_empty_property; eassumption|exact K'].
    - intros seen l o0 l1 lb0 rl0 t s nm ds b l2 pl l3 rb its l4 r H1 H2 H3 H4 H5 H6 H7 _ _ IH Hr.
      destruct (IH Hr) as (its' & l1' & r' & o & l2' & lb & rl & c & l3' & e' & re' & K & K').
      eexists _, l1', _, o, l2', lb, rl, c, l3', e', re'. split; [eapply ki_node; eassumption|exact K'].
  Qed.
  (** every name is reported on in some way *)
  Lemma some_label t s : valid_utf8 s = true -> exists ds, label_report src t s ds.
  Proof. intros H. destruct (check_label src t s H (mkTS [] [])) as (ds & _ & K & _). exists ds. exact K. Qed.
  Lemma some_property t s : valid_utf8 s = true -> exists ds, property_report src t s ds.
  Proof. intros H. destruct (check_property src t s H (mkTS [] [])) as (ds & _ & K & _). exists ds. exact K. Qed.
  Lemma some_node t s : valid_utf8 s = true -> exists nm ds, node_text s nm /\ node_report src t nm ds.
  Proof.
    intros H. destruct (check_node src t _ (nn_valid_of _ H) (mkTS [] [])) as (ds & _ & K & _).
    exists (node_name_of s), ds. split; [apply node_text_iff; reflexivity|exact K].
  Qed.
  Context (resumes_P : forall u l, P u -> resumes u l -> Forall P l).
  Lemma fits_any z : fits (fun _ _ => True) z.
  Proof. intros u l Hu H. split; [exact (resumes_P _ _ Hu H)|exact I]. Qed.
  Lemma F0 : fine [].
  Proof. intros ? ? K. discriminate K. Qed.
  Lemma brace_end R c (l : list token) : is CloseBrace c -> k_end R (c :: l) None (c :: l) [NoSemicolon].
  Proof.
    intros Hc. apply ke_missing. intros t r E. injection E as E _. subst t.
    split; [intros K; discriminate (eq_trans (eq_sym Hc) K)|intros k K; discriminate (eq_trans (eq_sym Hc) K)].
  Qed.
  Lemma rest_one R seen l it r c e l' : k_items src R seen l [it] (c :: e :: l') r -> is CloseBrace c -> is Semicolon e -> rest R seen l l'.
  Proof. intros H Hc He. eapply rest_items; [exact H|]. intros s. apply rest_close; assumption. Qed.
  Ltac next_word W u H := apply words_cons in W; destruct W as (u & ? & -> & H & W).
  Ltac no_word W := apply words_nil in W; rewrite W in *; clear W.
  Lemma m_body_item :
    (forall l st, x_body src resumes l st -> st = AtEnd -> Forall P l -> mends (fun R w z' => rest R false (l ++ w) z'))
    /\ (forall l st, x_item src resumes l st -> st = AtEnd -> Forall P l -> mends (fun R w z' => forall seen, rest R seen (l ++ w) z')).
  Proof.
    apply (x_body_item_ind src resumes
      (fun l st _ => st = AtEnd -> Forall P l -> mends (fun R w z' => rest R false (l ++ w) z'))
      (fun l st _ => st = AtEnd -> Forall P l -> mends (fun R w z' => forall seen, rest R seen (l ++ w) z'))).
    - intros l its l1 r st H _ IH Es HP. destruct (proj2 (e_body_items _ [] F0 (fits_any [])) _ _ _ _ _ H HP) as [G _].
      eapply mends_map; [exact (IH Es G)|]. intros R w z' Hf HR K. eapply rest_items; [|exact K]. exact (proj2 (proj2 (e_body_items _ _ Hf HR) _ _ _ _ _ H HP)).
    - intros _ _. exists [CloseBrace; Semicolon]. split; [opens|]. split; [help|]. intros z z' R W _ seen.
      next_word W c Hc. next_word W e He. no_word W. apply rest_close; assumption.
    - intros d l st Hd Hn Es HP. subst st. inversion Hn; subst. exists [w_name; CloseBrace; Semicolon]. split; [opens|]. split; [help|]. intros z z' R W _ seen.
      next_word W n Hw. next_word W c Hc. next_word W e He. no_word W. destruct (some_node n (bs "a") eq_refl) as (nm & ds & T1 & T2). cbn [app].
      eapply rest_one; [eapply ki_delete_node; [exact Hd|exact Hw|exact T1|exact T2|apply brace_end, Hc|apply ki_nil]|exact Hc|exact He].
    - intros d l st Hd Hn Es HP. subst st. inversion Hn; subst. exists [w_name; CloseBrace; Semicolon]. split; [opens|]. split; [help|]. intros z z' R W _ seen.
      next_word W n Hw. next_word W c Hc. next_word W e He. no_word W. destruct (some_property n (bs "a") eq_refl) as (ds & T2). cbn [app].
      eapply rest_one; [eapply ki_delete_property; [exact Hd|exact Hw|exact T2|apply brace_end, Hc|apply ki_nil]|exact Hc|exact He].
    - intros d Hd _ HP. exists [CloseBrace; Semicolon]. split; [opens|]. split; [help|]. intros z z' R W _ seen.
      next_word W c Hc. next_word W e He. no_word W. cbn [app].
      eexists [], _, [], _, _, None, [], c, (e :: z'), (Some e), []. split; [apply ki_nil|]. split; [apply go_some, Hd|]. split; [apply kl_none|].
      split; [exact Hc|]. apply ke_semicolon, He.
    - intros l o t s Ho Ht _ HP. destruct (e_omit [] _ _ _ Ho HP) as [G _]. inv G.
      destruct (some_label t s) as [ds T]; [apply (ok_label t); [apply P_ok; assumption|exact Ht]|].
      exists [CloseBrace; Semicolon]. split; [opens|]. split; [help|]. intros z z' R W _ seen.
      next_word W c Hc. next_word W e He. no_word W. cbn [app].
      eexists [], _, [], _, _, _, _, c, (e :: z'), (Some e), []. split; [apply ki_nil|]. split; [exact (proj2 (e_omit _ _ _ _ Ho HP))|].
      split; [cbn [app]; eapply kl_some; eassumption|]. split; [exact Hc|]. apply ke_semicolon, He.
    - intros. discriminate.
    - intros l o l1 lb r t s l2 st Ho Hl Ht Hx Es HP. subst st. inversion Hx; subst. destruct (e_omit [] _ _ _ Ho HP) as [G1 _]. destruct (e_label [] _ _ _ _ Hl G1) as [G2 _]. inv G2.
      destruct (some_node t s) as (nm & ds & T1 & T2); [apply (ok_ident t); [apply P_ok; assumption|exact Ht]|].
      exists [OpenBrace; CloseBrace; Semicolon; CloseBrace; Semicolon]. split; [opens|]. split; [help|]. intros z z' R W _ seen.
      next_word W b Hb. next_word W c1 Hc1. next_word W e1 He1. next_word W c Hc. next_word W e He. no_word W. cbn [app].
      eapply rest_one; [eapply ki_node; [exact (proj2 (e_omit _ _ _ _ Ho HP))|exact (proj2 (e_label _ _ _ _ _ Hl G1))|exact Ht|exact T1|exact T2|exact Hb| |apply ki_nil]|exact Hc|exact He].
      eapply kbo; [apply ki_nil|apply go_none|apply kl_none|exact Hc1|apply ke_semicolon, He1].
    - intros l o l1 lb r t s q l2 st Ho Hl Ht Hq Hx Es HP. subst st. destruct (e_omit [] _ _ _ Ho HP) as [G1 _]. destruct (e_label [] _ _ _ _ Hl G1) as [G2 _]. inv G2.
      match goal with K : Forall P (q :: _) |- _ => inv K end.
      destruct (some_property t s) as (ds & T2); [apply (ok_ident t); [apply P_ok; assumption|exact Ht]|].
      eapply (mends_more _ _ [Semicolon]); [eapply m_values; [exact Hx|reflexivity|assumption]|help|]. intros R w z2 z' Hf _ W (vs & c & rv & Hc & K) seen.
      next_word W e He. no_word W. cbn [app] in K.
      eapply rest_one; [eapply ki_property; [exact (proj2 (e_omit _ _ _ _ Ho HP))|exact (proj2 (e_label _ _ _ _ _ Hl G1))|exact Ht|exact T2|exact Hq|exact K|apply brace_end, Hc|apply ki_nil]|exact Hc|exact He].
    - intros l o l1 lb r t s b l2 st Ho Hl Ht Hb _ IH Es HP. destruct (e_omit [] _ _ _ Ho HP) as [G1 _]. destruct (e_label [] _ _ _ _ Hl G1) as [G2 _]. inv G2.
      match goal with K : Forall P (b :: _) |- _ => inv K end.
      destruct (some_node t s) as (nm & ds & T1 & T2); [apply (ok_ident t); [apply P_ok; assumption|exact Ht]|].
      eapply (mends_more _ _ [CloseBrace; Semicolon]); [apply IH; [reflexivity|assumption]|help|]. intros R w z2 z' Hf _ W K seen.
      next_word W c Hc. next_word W e He. no_word W. cbn [app] in K. destruct (rest_body _ _ _ K) as (pl & rb & K').
      eapply rest_one; [eapply ki_node; [exact (proj2 (e_omit _ _ _ _ Ho HP))|exact (proj2 (e_label _ _ _ _ _ Hl G1))|exact Ht|exact T1|exact T2|exact Hb|exact K'|apply ki_nil]|exact Hc|exact He].
  Qed.
  Lemma m_block l : x_block src resumes l AtEnd -> Forall P l -> mends (fun R w z' => exists b l1 pl r, l ++ w = b :: l1 /\ is OpenBrace b /\ k_body src R l1 pl z' r).
  Proof.
    intros H HP. inversion H as [l0 st Hx|b l0 st Hb Hx]; subst.
    - inversion Hx; subst. exists [OpenBrace; CloseBrace; Semicolon]. split; [opens|]. split; [help|]. intros z z' R W _.
      next_word W b Hb. next_word W c Hc. next_word W e He. no_word W. cbn [app]. eexists b, _, _, _. split; [reflexivity|]. split; [exact Hb|].
      eapply kbo; [apply ki_nil|apply go_none|apply kl_none|exact Hc|apply ke_semicolon, He].
    - inv HP. eapply mends_map; [eapply (proj1 m_body_item); [exact Hx|reflexivity|assumption]|]. intros R w z' _ _ K.
      destruct (rest_body _ _ _ K) as (pl & r & K'). eexists b, _, pl, r. split; [reflexivity|]. split; assumption.
  Qed.
  Lemma zero_number b t : 0 < b -> is w_number t -> k_number b t 0 [].
  Proof. intros Hb Ht. eapply kn_number; [exact Ht|apply lit_zero|exact Hb]. Qed.
  Lemma a_reference t : is w_ref t -> exists ds, k_reference src t (RefLabel (bs "a")) ds.
  Proof. intros Ht. destruct (some_label t (bs "a") eq_refl) as [ds T]. exists ds. eapply kr_label; eassumption. Qed.
  (** up to the end of the text *)
  Lemma m_primary l : x_primary src resumes l AtEnd -> Forall P l -> mends (fun R w z' => z' = [] -> exists p r, k_primary src incl R (l ++ w) p [] r).
  Proof.
    assert (KE : forall R, k_end R [] None [] [NoSemicolon]) by (intros R; apply ke_missing; intros ? ? K; discriminate K).
    intros H HP. inversion H as [|t l0 st Ht Hx|t a n r l0 st Ht Ha Hx|t l0 st Ht Hx|t l0 st Ht Hx|t x ds l0 st Ht Hx|d l0 st Hd Hx]; subst.
    - inversion Hx; subst. exists [w_number; w_number]. split; [opens|]. split; [help|]. intros z z' R W _ Ez. subst z'.
      next_word W a Ha. next_word W b Hb. no_word W. cbn [app]. eexists _, _. eapply kp_memreserve; [exact Ht|apply zero_number; [reflexivity|exact Ha]|apply zero_number; [reflexivity|exact Hb]|apply KE].
    - inversion Hx; subst. apply (mends_one _ w_number); [exact I|left; unfold word; cbn [In]; tauto|]. intros R b z' Hb _ _ Ez. subst z'. cbn [app].
      eexists _, _. eapply kp_memreserve; [exact Ht|exact Ha|apply zero_number; [reflexivity|exact Hb]|apply KE].
    - inversion Hx; subst. apply (mends_one _ w_string); [exact I|left; unfold word; cbn [In]; tauto|]. intros R b z' Hb _ _ Ez. subst z'. cbn [app].
      destruct Ht as [Ht|Ht]; eexists _, _; [eapply kp_include; [exact Ht|exact Hb|intros ? ? K; discriminate K]|eapply kp_c_include; [exact Ht|exact Hb]].
    - inv HP. eapply mends_map; [apply (m_block _ Hx); assumption|]. intros R w z' _ _ (b & l1 & pl & r & E & Hb & K) ->. cbn [app]. rewrite E. eexists _, _. eapply kp_root; eassumption.
    - inv HP. eapply mends_map; [apply (m_block _ Hx); assumption|]. intros R w z' _ _ (b & l1 & pl & r & E & Hb & K) ->. cbn [app]. rewrite E. eexists _, _. eapply kp_ref_node; eassumption.
    - inversion Hx; subst. apply (mends_one _ w_ref); [exact I|left; unfold word; cbn [In]; tauto|]. intros R b z' Hb _ _ Ez. subst z'. cbn [app].
      destruct (a_reference _ Hb) as [ds K]. destruct Hd as [Hd|Hd]; eexists _, _; [eapply kp_delete_node; [exact Hd|exact K|apply KE]|eapply kp_omit; [exact Hd|exact K|apply KE]].
  Qed.
  Lemma m_file l st : x_file src incl resumes l st -> st = AtEnd -> Forall P l -> mends (fun R w z' => z' = [] -> exists ps r, k_file src incl R (l ++ w) ps r).
  Proof.
    induction 1 as [l st H|l p l' r st H _ IH]; intros Es HP.
    - subst st. eapply mends_map; [exact (m_primary _ H HP)|]. intros R w z' _ _ K Ez. destruct (K Ez) as (p & r & K').
      eexists _, _. eapply kf_cons; [exact K'|apply kf_nil].
    - destruct (e_primary _ [] F0 (fits_any []) _ _ _ _ H HP) as [G _]. eapply mends_map; [exact (IH Es G)|]. intros R w z' Hf HR K Ez.
      destruct (K Ez) as (ps & r' & K'). eexists _, _. eapply kf_cons; [exact (proj2 (e_primary _ _ Hf HR _ _ _ _ H HP))|exact K'].
  Qed.
End More.
