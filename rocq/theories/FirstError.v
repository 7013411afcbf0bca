(** Where the token-level parser stops with an error other than "unexpected end of file": at the first token with which the
    tokens before it cannot be continued. Run on the tokens before that token alone it only misses their continuation. *)
From Verif Require Import Parser LexSpec Utf8 LexerProofs Grammar NameProofs TokParser GrammarComplete GrammarSound PropsGrammar PropsConcat GrammarDet Complete.

Definition yes {A} (m : TM A) (l : list token) (a : A) (l1 : list token) : Prop := m (mkTS l []) = TOk a (mkTS l1 []).
Definition no {A} (m : TM A) (l : list token) (d : diag) : Prop := exists l1, m (mkTS l []) = TErr d (mkTS l1 []).
Definition eof (d : diag) : Prop := dg_kind d = UnexpectedEOF.
(** the list begins with the token, if there is one *)
Definition fits (h : option token) (l : list token) : Prop := match h with None => True | Some t => exists r, l = t :: r end.
Definition same_head (l l' : list token) : Prop := exists x q q', l = x :: q /\ l' = x :: q'.

(** [m'] does not look at tokens *)
Definition still {A} (m m' : TM A) : Prop :=
  (forall l a l1, yes m l a l1 -> l1 = l /\ forall l', yes m' l' a l') /\ (forall l d, no m l d -> eof d).
(** reads some tokens, and perhaps looks at one more *)
Definition cut {A} (h : option token) (m m' : TM A) : Prop := forall l a l1, fits h l -> yes m l a l1 ->
  exists c, l = c ++ l1 /\ (forall q, same_head l1 q -> yes m' (c ++ q) a q) /\ (fits h c -> yes m' c a [] \/ exists d, no m' c d /\ eof d).
(** reads at least one token, and looks at no more than it reads *)
Definition pro {A} (h : option token) (m m' : TM A) : Prop := forall l a l1, fits h l -> yes m l a l1 ->
  exists c, l = c ++ l1 /\ c <> [] /\ forall q, yes m' (c ++ q) a q.
(** stops at a token without which it would have gone on, and the error is put at that token *)
Definition fall {A} (h : option token) (m m' : TM A) : Prop := forall l d, fits h l -> no m l d -> ~ eof d ->
  exists pre t post, l = pre ++ t :: post /\ (fits h pre -> exists e, no m' pre e /\ eof e)
    /\ dg_span d = tk_span t /\ forall q, no m' (pre ++ t :: q) d.
(** stops, whatever follows, because of the token [t] *)
Definition fling {A} (t : token) (m m' : TM A) : Prop := forall l d, no m l d -> ~ eof d -> dg_span d = tk_span t /\ forall q, no m' q d.
Definition drop {A} (t : token) (m m' : TM A) : Prop := fall None m m' \/ fling t m m'.
(** stops with nothing but the end of the tokens *)
Definition calm {A} (m : TM A) : Prop := forall l d, no m l d -> eof d.

Lemma yes_bind {A B} (m : TM A) (k : A -> TM B) l b l2 : mono m -> (forall a, mono (k a)) -> yes (t_bind m k) l b l2 ->
  exists a l1, yes m l a l1 /\ yes (k a) l1 b l2.
Proof.
  intros Hm Hk H. unfold yes, t_bind in *. specialize (Hm (mkTS l [])). destruct (m (mkTS l [])) as [a [l1 ds]|d s|] eqn:E; try discriminate H.
  specialize (Hk a (mkTS l1 ds)). rewrite H in Hk. destruct Hk as [n Hn]. cbn [t_diags] in Hn. symmetry in Hn. apply app_eq_nil in Hn. destruct Hn as [-> _].
  exists a, l1. auto.
Qed.
Lemma no_bind {A B} (m : TM A) (k : A -> TM B) l d : mono m -> (forall a, mono (k a)) -> no (t_bind m k) l d ->
  no m l d \/ exists a l1, yes m l a l1 /\ no (k a) l1 d.
Proof.
  intros Hm Hk [l2 H]. unfold no, yes, t_bind in *. specialize (Hm (mkTS l [])). destruct (m (mkTS l [])) as [a [l1 ds]|d' s|] eqn:E; try discriminate H.
  - specialize (Hk a (mkTS l1 ds)). rewrite H in Hk. destruct Hk as [n Hn]. cbn [t_diags] in Hn. symmetry in Hn. apply app_eq_nil in Hn. destruct Hn as [-> _].
    right. exists a, l1. split; [reflexivity|exists l2; exact H].
  - left. injection H as -> ->. exists l2. reflexivity.
Qed.
Lemma bind_yes {A B} (m : TM A) (k : A -> TM B) l a l1 b l2 : yes m l a l1 -> yes (k a) l1 b l2 -> yes (t_bind m k) l b l2.
Proof. unfold yes, t_bind. intros -> H. exact H. Qed.
Lemma bind_no {A B} (m : TM A) (k : A -> TM B) l a l1 d : yes m l a l1 -> no (k a) l1 d -> no (t_bind m k) l d.
Proof. unfold yes, no, t_bind. intros -> H. exact H. Qed.
Lemma bind_no1 {A B} (m : TM A) (k : A -> TM B) l d : no m l d -> no (t_bind m k) l d.
Proof. unfold no, t_bind. intros [l1 ->]. eauto. Qed.

(** ** Putting runs together *)
Lemma still_ret {A} (a : A) : still (t_ret a) (t_ret a).
Proof. split; [intros l b l1 H; injection H as -> ->; split; [reflexivity|intros l'; reflexivity]|intros l d [l1 H]; discriminate H]. Qed.
Lemma still_push d : still (t_push d) (t_push d).
Proof. split; [intros l b l1 H; discriminate H|intros l e [l1 H]; discriminate H]. Qed.
Lemma still_push_opt d : still (t_push_opt d) (t_push_opt d).
Proof. destruct d; [apply still_push|apply still_ret]. Qed.
Lemma still_bind {A B} (m m' : TM A) (k k' : A -> TM B) : mono m -> (forall a, mono (k a)) ->
  still m m' -> (forall a, still (k a) (k' a)) -> still (t_bind m k) (t_bind m' k').
Proof.
  intros Hm Hk [H1 H2] H3. split.
  - intros l b l2 H. destruct (yes_bind _ _ _ _ _ Hm Hk H) as (a & l1 & Ha & Hb). destruct (H1 _ _ _ Ha) as [-> Hq]. destruct (proj1 (H3 a) _ _ _ Hb) as [-> Hr].
    split; [reflexivity|]. intros l'. exact (bind_yes _ _ _ _ _ _ _ (Hq l') (Hr l')).
  - intros l d H. destruct (no_bind _ _ _ _ Hm Hk H) as [H'|(a & l1 & Ha & Hb)]; [exact (H2 _ _ H')|exact (proj2 (H3 a) _ _ Hb)].
Qed.
Lemma pro_cut {A} h (m m' : TM A) : pro h m m' -> cut h m m'.
Proof.
  intros H l a l1 Hf Hy. destruct (H l a l1 Hf Hy) as (c & -> & _ & Hq). exists c. split; [reflexivity|]. split; [intros q _; apply Hq|].
  intros _. left. specialize (Hq []). rewrite app_nil_r in Hq. exact Hq.
Qed.
Lemma still_cut {A} h (m m' : TM A) : still m m' -> cut h m m'.
Proof.
  intros [H _] l a l1 Hf Hy. destruct (H l a l1 Hy) as [-> Hq]. exists []. split; [reflexivity|]. split; [intros q _; apply Hq|].
  intros _. left. apply Hq.
Qed.
Lemma weak_cut {A} h (m m' : TM A) : cut None m m' -> cut h m m'.
Proof. intros H l a l1 _ Hy. destruct (H l a l1 I Hy) as (c & H1 & H2 & H3). exists c. split; [exact H1|]. split; [exact H2|]. intros _. exact (H3 I). Qed.
Lemma weak_pro {A} h (m m' : TM A) : pro None m m' -> pro h m m'.
Proof. intros H l a l1 _ Hy. exact (H l a l1 I Hy). Qed.
Lemma weak_fall {A} h (m m' : TM A) : fall None m m' -> fall h m m'.
Proof.
  intros H l d _ Hn He. destruct (H l d I Hn He) as (pre & t & post & H1 & H2 & H3). exists pre, t, post. split; [exact H1|]. split; [intros _; exact (H2 I)|exact H3].
Qed.
Lemma calm_fall {A} h (m m' : TM A) : calm m -> fall h m m'.
Proof. intros H l d _ Hn He. destruct (He (H _ _ Hn)). Qed.
Lemma calm_drop {A} t (m m' : TM A) : calm m -> drop t m m'.
Proof. intros H. left. apply calm_fall, H. Qed.
Lemma still_calm {A} (m m' : TM A) : still m m' -> calm m.
Proof. intros H. exact (proj2 H). Qed.
Lemma calm_bind {A B} (m : TM A) (k : A -> TM B) : mono m -> (forall a, mono (k a)) -> calm m -> (forall a, calm (k a)) -> calm (t_bind m k).
Proof. intros Hm Hk H1 H2 l d H. destruct (no_bind _ _ _ _ Hm Hk H) as [H'|(a & l1 & Ha & Hb)]; [exact (H1 _ _ H')|exact (H2 _ _ _ Hb)]. Qed.

Lemma cut_bind {A B} (m m' : TM A) (k k' : A -> TM B) : mono m -> (forall a, mono (k a)) ->
  cut None m m' -> (forall a, cut None (k a) (k' a)) -> cut None (t_bind m k) (t_bind m' k').
Proof.
  intros Hm Hk H1 H2 l b l2 _ H. destruct (yes_bind _ _ _ _ _ Hm Hk H) as (a & l1 & Ha & Hb).
  destruct (H1 _ _ _ I Ha) as (c1 & -> & Q1 & E1). destruct (H2 _ _ _ _ I Hb) as (c2 & -> & Q2 & E2).
  exists (c1 ++ c2). split; [apply app_assoc|]. specialize (E1 I). specialize (E2 I). split.
  - intros q Hq. rewrite <- app_assoc. apply (bind_yes _ _ _ a (c2 ++ q)); [|apply Q2; exact Hq]. apply Q1.
    destruct Hq as (x & r & r' & -> & ->). destruct c2 as [|y c2]; [exists x, r, r'; auto|eexists y, _, _; split; reflexivity].
  - intros _. assert (D : yes m' (c1 ++ c2) a c2 \/ exists d, no m' (c1 ++ c2) d /\ eof d).
    { destruct c2 as [|y c2]; [rewrite app_nil_r; exact E1|left; apply Q1; eexists y, _, _; split; reflexivity]. }
    destruct D as [D|(d & D & E)]; [|right; exists d; split; [exact (bind_no1 _ _ _ _ D)|exact E]].
    destruct E2 as [E2|(d & E2 & E)]; [left; exact (bind_yes _ _ _ _ _ _ _ D E2)|right; exists d; split; [exact (bind_no _ _ _ _ _ _ D E2)|exact E]].
Qed.
Lemma cut_pro {A B} (m m' : TM A) (k k' : A -> TM B) : mono m -> (forall a, mono (k a)) ->
  cut None m m' -> (forall a, pro None (k a) (k' a)) -> pro None (t_bind m k) (t_bind m' k').
Proof.
  intros Hm Hk H1 H2 l b l2 _ H. destruct (yes_bind _ _ _ _ _ Hm Hk H) as (a & l1 & Ha & Hb).
  destruct (H1 _ _ _ I Ha) as (c1 & -> & Q1 & _). destruct (H2 _ _ _ _ I Hb) as (c2 & -> & N2 & Q2).
  exists (c1 ++ c2). split; [apply app_assoc|]. split; [intros E; apply app_eq_nil in E; exact (N2 (proj2 E))|].
  intros q. rewrite <- app_assoc. apply (bind_yes _ _ _ a (c2 ++ q)); [|apply Q2]. apply Q1.
  destruct c2 as [|y c2]; [destruct (N2 eq_refl)|eexists y, _, _; split; reflexivity].
Qed.
Lemma pro_still {A B} h (m m' : TM A) (k k' : A -> TM B) : mono m -> (forall a, mono (k a)) ->
  pro h m m' -> (forall a, still (k a) (k' a)) -> pro h (t_bind m k) (t_bind m' k').
Proof.
  intros Hm Hk H1 H2 l b l2 Hf H. destruct (yes_bind _ _ _ _ _ Hm Hk H) as (a & l1 & Ha & Hb).
  destruct (H1 _ _ _ Hf Ha) as (c1 & -> & N1 & Q1). destruct (proj1 (H2 a) _ _ _ Hb) as [-> Q2].
  exists c1. split; [reflexivity|]. split; [exact N1|]. intros q. exact (bind_yes _ _ _ _ _ _ _ (Q1 q) (Q2 q)).
Qed.
Lemma fall_bind {A B} (m m' : TM A) (k k' : A -> TM B) : mono m -> (forall a, mono (k a)) ->
  cut None m m' -> fall None m m' -> (forall a, fall None (k a) (k' a)) -> fall None (t_bind m k) (t_bind m' k').
Proof.
  intros Hm Hk H1 F1 F2 l d _ H He. destruct (no_bind _ _ _ _ Hm Hk H) as [H'|(a & l1 & Ha & Hb)].
  - destruct (F1 _ _ I H' He) as (pre & t & post & E & L & W & P). exists pre, t, post. split; [exact E|]. split.
    + intros _. destruct (L I) as (e & L1 & L2). exists e. split; [exact (bind_no1 _ _ _ _ L1)|exact L2].
    + split; [exact W|]. intros q. exact (bind_no1 _ _ _ _ (P q)).
  - destruct (H1 _ _ _ I Ha) as (c & -> & Q & E). destruct (F2 _ _ _ I Hb He) as (pre & t & post & -> & L & W & P). specialize (E I). specialize (L I).
    exists (c ++ pre), t, post. split; [apply app_assoc|]. split.
    + intros _. assert (D : yes m' (c ++ pre) a pre \/ exists e, no m' (c ++ pre) e /\ eof e).
      { destruct pre as [|y pre]; [rewrite app_nil_r; exact E|left; apply Q; eexists y, _, _; split; reflexivity]. }
      destruct D as [D|(e & D & De)]; [|exists e; split; [exact (bind_no1 _ _ _ _ D)|exact De]].
      destruct L as (e & L & Le). exists e. split; [exact (bind_no _ _ _ _ _ _ D L)|exact Le].
    + split; [exact W|]. intros q. rewrite <- app_assoc. apply (bind_no _ _ _ a (pre ++ t :: q)); [|apply P]. apply Q.
      destruct pre as [|y pre]; eexists _, _, _; split; reflexivity.
Qed.
(** nothing read first *)
Lemma cut_first {A B} h (m m' : TM A) (k k' : A -> TM B) : mono m -> (forall a, mono (k a)) ->
  still m m' -> (forall a, cut h (k a) (k' a)) -> cut h (t_bind m k) (t_bind m' k').
Proof.
  intros Hm Hk [H1 _] H2 l b l2 Hf H. destruct (yes_bind _ _ _ _ _ Hm Hk H) as (a & l1 & Ha & Hb). destruct (H1 _ _ _ Ha) as [-> Q1].
  destruct (H2 _ _ _ _ Hf Hb) as (c & -> & Q2 & E). exists c. split; [reflexivity|]. split; [intros q Hq; exact (bind_yes _ _ _ _ _ _ _ (Q1 _) (Q2 q Hq))|].
  intros K. destruct (E K) as [E2|(d & E2 & Ee)]; [left; exact (bind_yes _ _ _ _ _ _ _ (Q1 _) E2)|right; exists d; split; [exact (bind_no _ _ _ _ _ _ (Q1 _) E2)|exact Ee]].
Qed.
Lemma pro_first {A B} h (m m' : TM A) (k k' : A -> TM B) : mono m -> (forall a, mono (k a)) ->
  still m m' -> (forall a, pro h (k a) (k' a)) -> pro h (t_bind m k) (t_bind m' k').
Proof.
  intros Hm Hk [H1 _] H2 l b l2 Hf H. destruct (yes_bind _ _ _ _ _ Hm Hk H) as (a & l1 & Ha & Hb). destruct (H1 _ _ _ Ha) as [-> Q1].
  destruct (H2 _ _ _ _ Hf Hb) as (c & -> & N & Q2). exists c. split; [reflexivity|]. split; [exact N|]. intros q. exact (bind_yes _ _ _ _ _ _ _ (Q1 _) (Q2 q)).
Qed.
Lemma fall_first {A B} h (m m' : TM A) (k k' : A -> TM B) : mono m -> (forall a, mono (k a)) ->
  still m m' -> (forall a, fall h (k a) (k' a)) -> fall h (t_bind m k) (t_bind m' k').
Proof.
  intros Hm Hk [H1 H0] H2 l d Hf H He. destruct (no_bind _ _ _ _ Hm Hk H) as [H'|(a & l1 & Ha & Hb)]; [destruct (He (H0 _ _ H'))|].
  destruct (H1 _ _ _ Ha) as [-> Q1]. destruct (H2 _ _ _ Hf Hb He) as (pre & t & post & E & L & W & P). exists pre, t, post. split; [exact E|]. split.
  - intros K. destruct (L K) as (e & L1 & L2). exists e. split; [exact (bind_no _ _ _ _ _ _ (Q1 _) L1)|exact L2].
  - split; [exact W|]. intros q. exact (bind_no _ _ _ _ _ _ (Q1 _) (P q)).
Qed.
Lemma fling_first {A B} t (m m' : TM A) (k k' : A -> TM B) : mono m -> (forall a, mono (k a)) ->
  still m m' -> (forall a, fling t (k a) (k' a)) -> fling t (t_bind m k) (t_bind m' k').
Proof.
  intros Hm Hk [H1 H0] H2 l d H He. destruct (no_bind _ _ _ _ Hm Hk H) as [H'|(a & l1 & Ha & Hb)]; [destruct (He (H0 _ _ H'))|].
  destruct (H1 _ _ _ Ha) as [-> Q1]. destruct (H2 _ _ _ Hb He) as [W P]. split; [exact W|]. intros q. exact (bind_no _ _ _ _ _ _ (Q1 _) (P q)).
Qed.
Lemma fling_throw {A} t d : dg_span d = tk_span t -> fling t (@t_throw A d) (t_throw d).
Proof. intros W l e [l1 H] _. injection H as -> _. split; [exact W|]. intros q. exists q. reflexivity. Qed.
Lemma fall_throw {A} t d : dg_span d = tk_span t -> fall (Some t) (@t_throw A d) (t_throw d).
Proof.
  intros W l e [r ->] [l1 H] _. injection H as -> _. exists [], t, r. split; [reflexivity|]. split; [intros [r' K]; discriminate K|]. split; [exact W|]. intros q. exists (t :: q). reflexivity.
Qed.
Lemma cut_never {A} h (m m' : TM A) : (forall l a l1, ~ yes m l a l1) -> cut h m m'.
Proof. intros H l a l1 _ K. destruct (H _ _ _ K). Qed.
Lemma pro_never {A} h (m m' : TM A) : (forall l a l1, ~ yes m l a l1) -> pro h m m'.
Proof. intros H l a l1 _ K. destruct (H _ _ _ K). Qed.
Lemma never_throw {A} d l (a : A) l1 : ~ yes (t_throw d) l a l1. Proof. discriminate. Qed.
Lemma never_nofuel {A} l (a : A) l1 : ~ yes t_no_fuel l a l1. Proof. discriminate. Qed.
Lemma never_panic {A} l (a : A) l1 : ~ yes t_panic l a l1. Proof. discriminate. Qed.
Lemma calm_nofuel {A} : calm (@t_no_fuel A). Proof. intros l d [l1 H]. discriminate H. Qed.
Lemma calm_panic {A} : calm (@t_panic A). Proof. intros l d [l1 H]. discriminate H. Qed.
Lemma calm_ret {A} (a : A) : calm (t_ret a). Proof. intros l d [l1 H]. discriminate H. Qed.
Lemma calm_push d : calm (t_push d). Proof. intros l e [l1 H]. discriminate H. Qed.
Lemma calm_peek : calm t_peek. Proof. intros l d [l1 H]. discriminate H. Qed.
Lemma calm_skip : calm t_skip_tok. Proof. intros l d [l1 H]. discriminate H. Qed.

Section First.
  Context (src : fpath) (incl : list fpath) (rl rl' : position -> list token).

  Lemma pro_next : pro None (t_expect_next src) (t_expect_next src).
  Proof. intros [|x l] a l1 _ H; [discriminate H|]. injection H as <- <-. exists [x]. split; [reflexivity|]. split; [discriminate|]. intros q. reflexivity. Qed.
  Lemma calm_next : calm (t_expect_next src).
  Proof. intros [|x l] d [l1 H]; [|discriminate H]. injection H as <- _. reflexivity. Qed.
  Lemma calm_peek_expect : calm (t_peek_expect src).
  Proof. intros [|x l] d [l1 H]; [|discriminate H]. injection H as <- _. reflexivity. Qed.
  Lemma cut_peek : cut None (t_peek_expect src) (t_peek_expect src).
  Proof.
    intros [|x l] a l1 _ H; [discriminate H|]. injection H as <- <-. exists []. split; [reflexivity|]. split.
    - intros q (y & r & r' & E & ->). injection E as <- <-. reflexivity.
    - intros _. right. exists (eof_diag pos_zero src). split; [exists []; reflexivity|reflexivity].
  Qed.
  Lemma next_fall {B} h (k k' : token -> TM B) : (forall a, mono (k a)) ->
    (forall t, drop t (k t) (k' t)) -> fall h (t_bind (t_expect_next src) k) (t_bind (t_expect_next src) k').
  Proof.
    intros Hk H. apply weak_fall. intros [|x l] d _ Hn He.
    - destruct Hn as [l1 Hn]. injection Hn as <- _. destruct (He eq_refl).
    - assert (Hb : no (k x) l d) by exact Hn. destruct (H x) as [F|F].
      + destruct (F _ _ I Hb He) as (pre & t & post & -> & L & W & P). exists (x :: pre), t, post. split; [reflexivity|]. split; [intros _; exact (L I)|exact (conj W P)].
      + exists [], x, l. split; [reflexivity|]. split; [|exact (F _ _ Hb He)].
        intros _. exists (eof_diag pos_zero src). split; [exists []; reflexivity|reflexivity].
  Qed.
  Lemma peek_fall {B} h (k k' : token -> TM B) : (forall a, mono (k a)) ->
    (forall t, fall (Some t) (k t) (k' t)) -> fall h (t_bind (t_peek_expect src) k) (t_bind (t_peek_expect src) k').
  Proof.
    intros Hk H. apply weak_fall. intros [|x l] d _ Hn He.
    - destruct Hn as [l1 Hn]. injection Hn as <- _. destruct (He eq_refl).
    - assert (Hb : no (k x) (x :: l) d) by exact Hn. destruct (H x _ _ (ex_intro _ l eq_refl) Hb He) as (pre & t & post & E & L & W & P).
      exists pre, t, post. split; [exact E|]. destruct pre as [|y pre]; injection E as <- ->.
      + split; [|exact (conj W P)]. intros _. exists (eof_diag pos_zero src). split; [exists []; reflexivity|reflexivity].
      + split; [|exact (conj W P)]. intros _. exact (L (ex_intro _ _ eq_refl)).
  Qed.
  Lemma peek_cut {B} h (k k' : token -> TM B) : (forall a, mono (k a)) ->
    (forall t, cut (Some t) (k t) (k' t)) -> cut h (t_bind (t_peek_expect src) k) (t_bind (t_peek_expect src) k').
  Proof.
    intros Hk H. apply weak_cut. intros [|x l] a l1 _ Hy; [discriminate Hy|].
    assert (Hb : yes (k x) (x :: l) a l1) by exact Hy. destruct (H x _ _ _ (ex_intro _ l eq_refl) Hb) as (c & E & Q & T). exists c. split; [exact E|]. split.
    - intros q Hq. destruct c as [|y c].
      + cbn [app] in *. subst l1. destruct Hq as (z & r & r' & Ez & ->). injection Ez as <- <-. apply (Q (x :: r')). eexists _, _, _. split; reflexivity.
      + injection E as <- E. exact (Q q Hq).
    - intros _. destruct c as [|y c].
      + right. exists (eof_diag pos_zero src). split; [exists []; reflexivity|reflexivity].
      + injection E as <- E. exact (T (ex_intro _ _ eq_refl)).
  Qed.
  Lemma peek_pro {B} h (k k' : token -> TM B) : (forall a, mono (k a)) ->
    (forall t, pro (Some t) (k t) (k' t)) -> pro h (t_bind (t_peek_expect src) k) (t_bind (t_peek_expect src) k').
  Proof.
    intros Hk H. apply weak_pro. intros [|x l] a l1 _ Hy; [discriminate Hy|].
    assert (Hb : yes (k x) (x :: l) a l1) by exact Hy. destruct (H x _ _ _ (ex_intro _ l eq_refl) Hb) as (c & E & N & Q). exists c. split; [exact E|]. split; [exact N|].
    intros q. destruct c as [|y c]; [destruct (N eq_refl)|]. injection E as <- E. exact (Q q).
  Qed.
  Lemma skip_fall {B} t (k k' : unit -> TM B) : fall None (k tt) (k' tt) -> fall (Some t) (t_bind t_skip_tok k) (t_bind t_skip_tok k').
  Proof.
    intros H l d [r ->] Hn He. assert (Hb : no (k tt) r d) by exact Hn. destruct (H _ _ I Hb He) as (pre & u & post & -> & L & W & P).
    exists (t :: pre), u, post. split; [reflexivity|]. split; [intros _; exact (L I)|exact (conj W P)].
  Qed.
  Lemma skip_cut {B} t (k k' : unit -> TM B) : cut None (k tt) (k' tt) -> cut (Some t) (t_bind t_skip_tok k) (t_bind t_skip_tok k').
  Proof.
    intros H l a l1 [r ->] Hy. assert (Hb : yes (k tt) r a l1) by exact Hy. destruct (H _ _ _ I Hb) as (c & -> & Q & E).
    exists (t :: c). split; [reflexivity|]. split; [exact Q|]. intros _. exact (E I).
  Qed.
  Lemma skip_pro {B} t (k k' : unit -> TM B) : (forall u, mono (k u)) -> pro None (k tt) (k' tt) -> pro (Some t) (t_bind t_skip_tok k) (t_bind t_skip_tok k').
  Proof.
    intros _ H l a l1 [r ->] Hy. assert (Hb : yes (k tt) r a l1) by exact Hy. destruct (H _ _ _ I Hb) as (c & -> & N & Q).
    exists (t :: c). split; [reflexivity|]. split; [discriminate|exact Q].
  Qed.
  Lemma skip_still {B} t (k k' : unit -> TM B) : still (k tt) (k' tt) -> pro (Some t) (t_bind t_skip_tok k) (t_bind t_skip_tok k').
  Proof.
    intros [H _] l a l1 [r ->] Hy. assert (Hb : yes (k tt) r a l1) by exact Hy. destruct (H _ _ _ Hb) as [-> Q].
    exists [t]. split; [reflexivity|]. split; [discriminate|]. intros q. exact (Q q).
  Qed.

  (** ** Functions that look at no token *)
  Lemma still_source : still (t_source src) (t_source src). Proof. apply still_ret. Qed.
  Lemma still_incl : still (t_include_paths incl) (t_include_paths incl). Proof. apply still_ret. Qed.
  Lemma still_last : still t_last_pos t_last_pos. Proof. apply still_ret. Qed.
  Ltac bd L := apply L; [solve [mono_tac]|solve [mono_tac]| |].
  Ltac fb := apply fall_bind; [solve [mono_tac]|solve [mono_tac]| | |].
  Lemma still_check sp s p1 p2 ctx : still (t_check_ident src sp s p1 p2 ctx) (t_check_ident src sp s p1 p2 ctx).
  Proof. unfold t_check_ident. bd @still_bind; [apply still_source|intros a; apply still_push_opt]. Qed.
  Lemma still_label sp s : still (t_check_is_label src sp s) (t_check_is_label src sp s).
  Proof. apply still_check. Qed.
  Lemma still_property sp s : still (t_check_is_property_name src sp s) (t_check_is_property_name src sp s).
  Proof. apply still_check. Qed.
  Lemma still_node sp n : still (t_check_is_node_name src sp n) (t_check_is_node_name src sp n).
  Proof.
    unfold t_check_is_node_name. destruct (match nn_addr n with None => _ | Some _ => _ end); [apply still_ret|].
    bd @still_bind; [apply still_check|intros []]. destruct (nn_addr n); [apply still_check|apply still_ret].
  Qed.
  Lemma still_path sp p : still (t_check_path src sp p) (t_check_path src sp p).
  Proof. induction p as [|n p IH]; cbn [t_check_path]; [apply still_ret|]. bd @still_bind; [apply still_node|intros []; exact IH]. Qed.
  Lemma still_reference t r : still (t_p_reference src t r) (t_p_reference src t r).
  Proof.
    unfold t_p_reference. destruct r as [s|s].
    - bd @still_bind; [apply still_label|intros []; apply still_ret].
    - bd @still_bind; [destruct s; [apply still_push|apply still_ret]|intros []]. bd @still_bind; [apply still_path|intros []; apply still_ret].
  Qed.
  Lemma still_omit o : still (t_check_omit src o) (t_check_omit src o).
  Proof. unfold t_check_omit. destruct o; [|apply still_ret]. bd @still_bind; [apply still_source|intros a; apply still_push]. Qed.
  Lemma still_order b p : still (t_check_order src b p) (t_check_order src b p).
  Proof. unfold t_check_order. destruct b; [|apply still_ret]. bd @still_bind; [apply still_source|intros a; apply still_push]. Qed.

  (** ** Values *)
  Lemma label_cut : cut None t_skip_optional_label t_skip_optional_label.
  Proof.
    intros [|x l] a l1 _ H.
    - injection H as <- <-. exists []. split; [reflexivity|]. split; [intros q (y & r & r' & E & _); discriminate E|]. intros _. left. reflexivity.
    - unfold yes, t_skip_optional_label, t_bind, t_peek in H. cbn [t_toks hd_error] in H.
      assert (D : (exists s, tk_kind x = Label s) \/ forall s, tk_kind x <> Label s) by (destruct (tk_kind x); eauto; right; discriminate).
      destruct D as [[s E]|E].
      + rewrite E in H. injection H as <- <-. exists [x]. split; [reflexivity|].
        assert (Q : forall q, yes t_skip_optional_label ([x] ++ q) tt q).
        { intros q. unfold yes, t_skip_optional_label, t_bind, t_peek. cbn [t_toks hd_error app]. rewrite E. reflexivity. }
        split; [intros q _; apply Q|]. intros _. left. exact (Q []).
      + assert (Q : forall q, yes t_skip_optional_label (x :: q) tt (x :: q)).
        { intros q. unfold yes, t_skip_optional_label, t_bind, t_peek. cbn [t_toks hd_error app]. destruct (tk_kind x); try reflexivity. destruct (E s eq_refl). }
        pose proof (Q l) as Q1. unfold yes, t_skip_optional_label, t_bind, t_peek in Q1. cbn [t_toks hd_error] in Q1. rewrite Q1 in H. injection H as <- <-.
        exists []. split; [reflexivity|]. split; [intros q (y & r & r' & K & ->); injection K as <- <-; apply Q|]. intros _. left. reflexivity.
  Qed.
  Lemma label_calm : calm t_skip_optional_label.
  Proof.
    unfold t_skip_optional_label. apply calm_bind; [mono_tac|mono_tac|apply calm_peek|]. intros [t|]; [|apply calm_ret].
    destruct (tk_kind t); first [apply calm_ret|apply calm_skip].
  Qed.
  Definition look {A} (m m' : TM A) : Prop := forall l a l1, yes m l a l1 -> exists c, l = c ++ l1 /\ forall q, same_head l1 q -> yes m' (c ++ q) a q.
  Lemma expression_look f : forall d, look (t_skip_expression f d) (t_skip_expression f d).
  Proof.
    induction f as [|f IH]; intros d l a l1 H; [discriminate H|]. cbn [t_skip_expression] in *.
    destruct l as [|x l].
    - injection H as <- <-. exists []. split; [reflexivity|]. intros q (y & r & r' & E & _). discriminate E.
    - unfold yes, t_bind at 1, t_peek in H. cbn [t_toks hd_error] in H.
      set (k := match tk_kind x with OpenParen => t_skip_expression f (d + 1)
        | CloseParen => if d =? 1 then t_ret tt else t_skip_expression f (d - 1) | _ => t_skip_expression f d end).
      assert (R : forall q, t_skip_expression (S f) d (mkTS (x :: q) []) = k (mkTS q [])).
      { intros q. cbn [t_skip_expression]. unfold t_bind at 1, t_peek. cbn [t_toks hd_error]. unfold k. destruct (tk_kind x); reflexivity. }
      change (t_skip_expression (S f) d (mkTS (x :: l) []) = TOk a (mkTS l1 [])) in H. rewrite R in H.
      assert (K : look k k).
      { unfold k. destruct (tk_kind x); try apply IH. destruct (d =? 1); [|apply IH].
        intros l0 b l2 H0. injection H0 as <- <-. exists []. split; [reflexivity|]. intros q _. reflexivity. }
      destruct (K _ _ _ H) as (c & -> & Q). exists (x :: c). split; [reflexivity|]. intros q Hq. change (t_skip_expression (S f) d (mkTS (x :: c ++ q) []) = TOk a (mkTS q [])). rewrite R. exact (Q q Hq).
  Qed.
  Lemma still_look {A} (m m' : TM A) : still m m' -> look m m'.
  Proof. intros [H _] l a l1 Hy. destruct (H _ _ _ Hy) as [-> Q]. exists []. split; [reflexivity|]. intros q _. apply Q. Qed.
  Lemma next_look {B} (k k' : token -> TM B) : (forall t, look (k t) (k' t)) -> look (t_bind (t_expect_next src) k) (t_bind (t_expect_next src) k').
  Proof.
    intros H [|x l] a l1 Hy; [discriminate Hy|]. assert (Hb : yes (k x) l a l1) by exact Hy.
    destruct (H x _ _ _ Hb) as (c & -> & Q). exists (x :: c). split; [reflexivity|]. exact Q.
  Qed.
  Lemma look_bind {A B} (m m' : TM A) (k k' : A -> TM B) : mono m -> (forall a, mono (k a)) ->
    look m m' -> (forall a, look (k a) (k' a)) -> look (t_bind m k) (t_bind m' k').
  Proof.
    intros Hm Hk H1 H2 l b l2 H. destruct (yes_bind _ _ _ _ _ Hm Hk H) as (a & l1 & Ha & Hb).
    destruct (H1 _ _ _ Ha) as (c1 & -> & Q1). destruct (H2 _ _ _ _ Hb) as (c2 & -> & Q2).
    exists (c1 ++ c2). split; [apply app_assoc|]. intros q Hq. rewrite <- app_assoc. apply (bind_yes _ _ _ a (c2 ++ q)); [|apply Q2; exact Hq]. apply Q1.
    destruct Hq as (x & r & r' & -> & ->). destruct c2 as [|y c2]; [exists x, r, r'; auto|eexists y, _, _; split; reflexivity].
  Qed.
  Lemma look_never {A} (m m' : TM A) : (forall l a l1, ~ yes m l a l1) -> look m m'.
  Proof. intros H l a l1 K. destruct (H _ _ _ K). Qed.
  Lemma number_look f : look (t_number_u32 src f) (t_number_u32 src f).
  Proof.
    unfold t_number_u32. apply next_look. intros x. destruct (tk_kind x); try (apply look_never; intros; apply never_throw).
    - bd @look_bind; [apply expression_look|]. intros []. intros [|y l] a l1 H; [discriminate H|]. injection H as <- <-. exists []. split; [reflexivity|].
      intros q (z & r & r' & _ & ->). reflexivity.
    - apply still_look. destruct (parse_number u32_lim s); [apply still_ret|]. bd @still_bind; [apply still_push|intros []; apply still_ret].
    - apply still_look. bd @still_bind; [apply still_reference|intros a; apply still_ret].
  Qed.

  Lemma yes_catch {A B} (m : TM A) (k : A -> TM B) g l b l2 : (forall a, mono (k a)) ->
    (forall d s x s', g d s = TOk x s' -> t_diags s' <> []) -> yes (t_catch m k g) l b l2 -> exists a l1, yes m l a l1 /\ yes (k a) l1 b l2.
  Proof.
    intros Hk Hg H. unfold yes, t_catch in *. destruct (m (mkTS l [])) as [a [l1 ds]|d s|] eqn:E; [| |discriminate H].
    - specialize (Hk a (mkTS l1 ds)). rewrite H in Hk. destruct Hk as [n Hn]. cbn [t_diags] in Hn. symmetry in Hn. apply app_eq_nil in Hn. destruct Hn as [-> _].
      exists a, l1. auto.
    - destruct (Hg _ _ _ _ H eq_refl).
  Qed.
  Lemma no_catch {A B} (m : TM A) (k : A -> TM B) g l d : (forall a, mono (k a)) ->
    (forall d s x s', g d s = TErr x s' -> t_diags s' <> []) -> no (t_catch m k g) l d -> exists a l1, yes m l a l1 /\ no (k a) l1 d.
  Proof.
    intros Hk Hg [l2 H]. unfold yes, no, t_catch in *. destruct (m (mkTS l [])) as [a [l1 ds]|e s|] eqn:E; [| |discriminate H].
    - specialize (Hk a (mkTS l1 ds)). rewrite H in Hk. destruct Hk as [n Hn]. cbn [t_diags] in Hn. symmetry in Hn. apply app_eq_nil in Hn. destruct Hn as [-> _].
      exists a, l1. split; [reflexivity|exists l2; exact H].
    - destruct (Hg _ _ _ _ H eq_refl).
  Qed.
  Lemma catch_yes {A B} (m : TM A) (k : A -> TM B) g l a l1 b l2 : yes m l a l1 -> yes (k a) l1 b l2 -> yes (t_catch m k g) l b l2.
  Proof. unfold yes, t_catch. intros -> H. exact H. Qed.
  Lemma cells_pushes f acc d s : match (t_push d ;^ t_cells_loop src f acc) s with TOk _ s' | TErr _ s' => t_diags s' <> [] | TBad => True end.
  Proof.
    unfold t_bind, t_push. assert (M : mono (t_cells_loop src f acc)) by mono_tac. specialize (M (mkTS (t_toks s) (t_diags s ++ [d]))).
    destruct (t_cells_loop src f acc (mkTS (t_toks s) (t_diags s ++ [d]))) as [a s'|e s'|]; [| |exact I]; destruct M as [n Hn]; cbn [t_diags] in Hn; intros K;
      rewrite K in Hn; symmetry in Hn; apply app_eq_nil in Hn; destruct Hn as [Hn _]; apply app_eq_nil in Hn; destruct Hn as [_ Hn]; discriminate Hn.
  Qed.
  Lemma cells_pro f : forall acc, pro None (t_cells_loop src f acc) (t_cells_loop src f acc).
  Proof.
    induction f as [|f IH]; intros acc; cbn [t_cells_loop]; [apply pro_never, never_nofuel|].
    bd @cut_pro; [apply label_cut|intros []]. apply peek_pro; [mono_tac|]. intros t. destruct (kind_eqb (tk_kind t) ChevronRight).
    - bd @pro_still; [apply weak_pro, pro_next|intros a; apply still_ret].
    - apply weak_pro. intros l a l1 _ H. apply yes_catch in H; [|mono_tac|].
      2: { intros d s x s' E. pose proof (cells_pushes f acc d s) as P. rewrite E in P. exact P. }
      destruct H as (c & l2 & Hc & H). destruct (number_look _ _ _ _ Hc) as (c1 & -> & Q1). destruct (IH _ _ _ _ I H) as (c2 & -> & N2 & Q2).
      exists (c1 ++ c2). split; [apply app_assoc|]. split; [intros E; apply app_eq_nil in E; exact (N2 (proj2 E))|].
      intros q. rewrite <- app_assoc. apply (catch_yes _ _ _ _ c (c2 ++ q)); [|apply Q2]. apply Q1. destruct c2 as [|y c2]; [destruct (N2 eq_refl)|eexists y, _, _; split; reflexivity].
  Qed.
  Lemma cells_calm f : forall acc, calm (t_cells_loop src f acc).
  Proof.
    induction f as [|f IH]; intros acc; cbn [t_cells_loop]; [apply calm_nofuel|].
    bd @calm_bind; [apply label_calm|intros []]. bd @calm_bind; [apply calm_peek_expect|]. intros t. destruct (kind_eqb (tk_kind t) ChevronRight).
    - bd @calm_bind; [apply calm_next|intros a; apply calm_ret].
    - intros l d H. apply no_catch in H; [|mono_tac|].
      2: { intros e s x s' E. pose proof (cells_pushes f acc e s) as P. rewrite E in P. exact P. }
      destruct H as (c & l2 & _ & H). exact (IH _ _ _ H).
  Qed.
  Lemma byte_still x : forall s : str, still (if negb (Nat.even (length s)) then
      t_push (diag_from_token x OddNumberOfBytestringElements (bs "Number of elements in byte string must be even")) ;^ t_ret (mkWT [] x)
    else match decode_pairs s with
         | Done (inl b) => t_ret (mkWT b x)
         | Done (inr e) => t_push (diag_int_error (tk_span x) (tk_source x) e) ;^ t_ret (mkWT [] x)
         | Panic => t_panic
         | NoFuel => t_no_fuel
         end) (if negb (Nat.even (length s)) then
      t_push (diag_from_token x OddNumberOfBytestringElements (bs "Number of elements in byte string must be even")) ;^ t_ret (mkWT [] x)
    else match decode_pairs s with
         | Done (inl b) => t_ret (mkWT b x)
         | Done (inr e) => t_push (diag_int_error (tk_span x) (tk_source x) e) ;^ t_ret (mkWT [] x)
         | Panic => t_panic
         | NoFuel => t_no_fuel
         end).
  Proof.
    intros s. destruct (negb (Nat.even (length s))); [bd @still_bind; [apply still_push|intros []; apply still_ret]|].
    destruct (decode_pairs s) as [[b|e]| |]; [apply still_ret|bd @still_bind; [apply still_push|intros []; apply still_ret]| |];
      (split; [intros l a l1 K; discriminate K|intros l d [l1 K]; discriminate K]).
  Qed.
  Lemma next_pro {B} h (k k' : token -> TM B) : (forall a, mono (k a)) -> (forall t, still (k t) (k' t) \/ pro None (k t) (k' t)) ->
    pro h (t_bind (t_expect_next src) k) (t_bind (t_expect_next src) k').
  Proof.
    intros Hk H. apply weak_pro. intros [|x l] a l1 _ Hy; [discriminate Hy|]. assert (Hb : yes (k x) l a l1) by exact Hy. destruct (H x) as [K|K].
    - destruct (proj1 K _ _ _ Hb) as [-> Q]. exists [x]. split; [reflexivity|]. split; [discriminate|]. intros q. exact (Q q).
    - destruct (K _ _ _ I Hb) as (c & -> & N & Q). exists (x :: c). split; [reflexivity|]. split; [discriminate|exact Q].
  Qed.
  Lemma byte_parts x : still (match tk_kind x with
      | UnparsedNumber s | Ident s => if negb (Nat.even (length s)) then
          t_push (diag_from_token x OddNumberOfBytestringElements (bs "Number of elements in byte string must be even")) ;^ t_ret (mkWT [] x)
        else match decode_pairs s with
         | Done (inl b) => t_ret (mkWT b x)
         | Done (inr e) => t_push (diag_int_error (tk_span x) (tk_source x) e) ;^ t_ret (mkWT [] x)
         | Panic => t_panic
         | NoFuel => t_no_fuel
         end
      | _ => t_push (diag_expected (tk_span x) (tk_source x) [k_num; k_ident]) ;^ t_ret (mkWT [] x) end)
     (match tk_kind x with
      | UnparsedNumber s | Ident s => if negb (Nat.even (length s)) then
          t_push (diag_from_token x OddNumberOfBytestringElements (bs "Number of elements in byte string must be even")) ;^ t_ret (mkWT [] x)
        else match decode_pairs s with
         | Done (inl b) => t_ret (mkWT b x)
         | Done (inr e) => t_push (diag_int_error (tk_span x) (tk_source x) e) ;^ t_ret (mkWT [] x)
         | Panic => t_panic
         | NoFuel => t_no_fuel
         end
      | _ => t_push (diag_expected (tk_span x) (tk_source x) [k_num; k_ident]) ;^ t_ret (mkWT [] x) end).
  Proof. destruct (tk_kind x); first [apply byte_still|bd @still_bind; [apply still_push|intros []; apply still_ret]]. Qed.
  Lemma byte_pro : pro None (t_byte_string src) (t_byte_string src).
  Proof. unfold t_byte_string. apply next_pro; [mono_tac|]. intros x. left. apply byte_parts. Qed.
  Lemma byte_calm : calm (t_byte_string src).
  Proof. unfold t_byte_string. bd @calm_bind; [apply calm_next|]. intros x. exact (still_calm _ _ (byte_parts x)). Qed.
  Lemma bytes_pro f : forall acc, pro None (t_bytes_loop src f acc) (t_bytes_loop src f acc).
  Proof.
    induction f as [|f IH]; intros acc; cbn [t_bytes_loop]; [apply pro_never, never_nofuel|].
    bd @cut_pro; [apply label_cut|intros []]. apply peek_pro; [mono_tac|]. intros t. destruct (kind_eqb (tk_kind t) CloseBracket).
    - apply skip_still, still_ret.
    - apply weak_pro. bd @cut_pro; [apply pro_cut, byte_pro|intros b; apply IH].
  Qed.
  Lemma bytes_calm f : forall acc, calm (t_bytes_loop src f acc).
  Proof.
    induction f as [|f IH]; intros acc; cbn [t_bytes_loop]; [apply calm_nofuel|].
    bd @calm_bind; [apply label_calm|intros []]. bd @calm_bind; [apply calm_peek_expect|]. intros t. destruct (kind_eqb (tk_kind t) CloseBracket).
    - bd @calm_bind; [apply calm_skip|intros []; apply calm_ret].
    - bd @calm_bind; [apply byte_calm|intros b; apply IH].
  Qed.
  Lemma bits_parts x : still (match tk_kind x with UnparsedNumber _ => t_ret tt | _ => t_push (diag_expected (tk_span x) (tk_source x) [k_num]) end)
    (match tk_kind x with UnparsedNumber _ => t_ret tt | _ => t_push (diag_expected (tk_span x) (tk_source x) [k_num]) end).
  Proof. destruct (tk_kind x); first [apply still_ret|apply still_push]. Qed.
  Lemma bits_cut : cut None (t_bits_prefix src) (t_bits_prefix src).
  Proof.
    intros [|x l] a l1 _ H.
    - injection H as <- <-. exists []. split; [reflexivity|]. split; [intros q (y & r & r' & E & _); discriminate E|]. intros _. left. reflexivity.
    - set (k := fun x => if kind_eqb (tk_kind x) (Directive Bits) then t_skip_tok ;^ let^ width := t_expect_next src in
        match tk_kind width with UnparsedNumber _ => t_ret tt | _ => t_push (diag_expected (tk_span width) (tk_source width) [k_num]) end else t_ret tt).
      assert (R : forall q, t_bits_prefix src (mkTS (x :: q) []) = k x (mkTS (x :: q) [])) by reflexivity.
      assert (Hb : yes (k x) (x :: l) a l1) by exact H.
      assert (K : cut (Some x) (k x) (k x)).
      { unfold k. destruct (kind_eqb (tk_kind x) (Directive Bits)); [|apply still_cut, still_ret]. apply skip_cut, pro_cut, next_pro; [mono_tac|].
        intros t. left. apply bits_parts. }
      destruct (K _ _ _ (ex_intro _ l eq_refl) Hb) as (c & E & Q & T). exists c. split; [exact E|]. destruct c as [|y c].
      + cbn [app] in E. subst l1. split; [|intros _; left].
        * intros q (y & r & r' & K1 & ->). injection K1 as <- <-. cbn [app]. unfold yes. rewrite R. apply (Q (x :: r')). eexists _, _, _. split; reflexivity.
        * revert Hb. unfold k. destruct (kind_eqb (tk_kind x) (Directive Bits)); [|intros Hb; injection Hb as <-; reflexivity].
          intros Hb. exfalso. assert (P : pro (Some x) (t_skip_tok ;^ let^ width := t_expect_next src in
            match tk_kind width with UnparsedNumber _ => t_ret tt | _ => t_push (diag_expected (tk_span width) (tk_source width) [k_num]) end)
            (t_skip_tok ;^ let^ width := t_expect_next src in
            match tk_kind width with UnparsedNumber _ => t_ret tt | _ => t_push (diag_expected (tk_span width) (tk_source width) [k_num]) end)).
          { apply skip_pro; [mono_tac|]. apply next_pro; [mono_tac|]. intros t. left. apply bits_parts. }
          destruct (P _ _ _ (ex_intro _ l eq_refl) Hb) as (c & E2 & N & _). apply (f_equal (@length token)) in E2. rewrite app_length in E2.
          destruct c; [exact (N eq_refl)|cbn [length] in E2; lia].
      + injection E as <- E. split; [exact Q|]. intros _. exact (T (ex_intro _ _ eq_refl)).
  Qed.
  Lemma bits_calm : calm (t_bits_prefix src).
  Proof.
    unfold t_bits_prefix. bd @calm_bind; [apply calm_peek|]. intros [t|]; [|apply calm_ret]. destruct (kind_eqb (tk_kind t) (Directive Bits)); [|apply calm_ret].
    bd @calm_bind; [apply calm_skip|intros []]. bd @calm_bind; [apply calm_next|]. intros x. exact (still_calm _ _ (bits_parts x)).
  Qed.
  Lemma value_pro f : pro None (t_property_value src f) (t_property_value src f).
  Proof.
    unfold t_property_value. bd @cut_pro; [apply bits_cut|intros []]. apply next_pro; [mono_tac|]. intros t.
    destruct (tk_kind t); try (right; apply pro_never; intros; apply never_throw).
    - right. bd @pro_still; [apply bytes_pro|intros []; apply still_ret].
    - right. bd @pro_still; [apply cells_pro|intros []; apply still_ret].
    - left. apply still_ret.
    - left. bd @still_bind; [apply still_reference|intros a; apply still_ret].
  Qed.
  Lemma value_fall f : fall None (t_property_value src f) (t_property_value src f).
  Proof.
    unfold t_property_value. fb; [apply bits_cut|apply calm_fall, bits_calm|intros []]. apply next_fall; [mono_tac|]. intros t.
    destruct (tk_kind t); try (right; apply fling_throw; reflexivity); apply calm_drop.
    - bd @calm_bind; [apply bytes_calm|intros []; apply calm_ret].
    - bd @calm_bind; [apply cells_calm|intros []; apply calm_ret].
    - apply calm_ret.
    - bd @calm_bind; [exact (still_calm _ _ (still_reference _ _))|intros a; apply calm_ret].
  Qed.
  Lemma values_cut f : forall acc, cut None (t_property_values src f acc) (t_property_values src f acc).
  Proof.
    induction f as [|f IH]; intros acc; cbn [t_property_values]; [apply cut_never, never_nofuel|].
    bd @cut_bind; [apply label_cut|intros []]. bd @cut_bind; [apply pro_cut, value_pro|intros v]. bd @cut_bind; [apply label_cut|intros []].
    apply peek_cut; [mono_tac|]. intros t. destruct (kind_eqb (tk_kind t) Comma); [apply skip_cut, IH|apply still_cut, still_ret].
  Qed.
  Lemma values_fall f : forall acc, fall None (t_property_values src f acc) (t_property_values src f acc).
  Proof.
    induction f as [|f IH]; intros acc; cbn [t_property_values]; [apply calm_fall, calm_nofuel|].
    fb; [apply label_cut|apply calm_fall, label_calm|intros []]. fb; [apply pro_cut, value_pro|apply value_fall|intros v]. fb; [apply label_cut|apply calm_fall, label_calm|intros []].
    apply peek_fall; [mono_tac|]. intros t. destruct (kind_eqb (tk_kind t) Comma); [apply skip_fall, IH|apply calm_fall, calm_ret].
  Qed.

  (** ** Statements *)
  Lemma semicolon_pro : pro None (t_expect_semicolon src rl) (t_expect_semicolon src rl').
  Proof.
    intros [|x l] a l1 _ H; [discriminate H|]. assert (E : tk_kind x = Semicolon).
    { unfold yes, t_expect_semicolon, t_bind, t_peek in H. cbn [t_toks hd_error] in H. destruct (tk_kind x); try reflexivity; discriminate H. }
    assert (R : forall rl q, t_expect_semicolon src rl (mkTS (x :: q) []) = TOk (Some x) (mkTS q [])).
    { intros r q. unfold t_expect_semicolon, t_bind, t_peek. cbn [t_toks hd_error]. rewrite E. reflexivity. }
    unfold yes in H. rewrite R in H. injection H as <- <-. exists [x]. split; [reflexivity|]. split; [discriminate|]. intros q. apply R.
  Qed.
  Lemma semicolon_calm : calm (t_expect_semicolon src rl).
  Proof.
    intros [|x l] d [l1 H]; [discriminate H|]. exfalso.
    unfold t_expect_semicolon, t_bind, t_peek in H. cbn [t_toks hd_error] in H. destruct (tk_kind x); discriminate H.
  Qed.
  Lemma node_name_pro : pro None (t_p_node_name src) (t_p_node_name src).
  Proof.
    unfold t_p_node_name. apply next_pro; [mono_tac|]. intros t. destruct (tk_kind t); try (right; apply pro_never; intros; apply never_throw).
    left. bd @still_bind; [apply still_node|intros []; apply still_ret].
  Qed.
  Lemma node_name_fall : fall None (t_p_node_name src) (t_p_node_name src).
  Proof.
    unfold t_p_node_name. apply next_fall; [mono_tac|]. intros t. destruct (tk_kind t); try (right; apply fling_throw; reflexivity).
    apply calm_drop. bd @calm_bind; [exact (still_calm _ _ (still_node _ _))|intros []; apply calm_ret].
  Qed.
  Lemma property_name_pro : pro None (t_p_property_name src) (t_p_property_name src).
  Proof.
    unfold t_p_property_name. apply next_pro; [mono_tac|]. intros t. destruct (tk_kind t); try (right; apply pro_never; intros; apply never_throw).
    left. bd @still_bind; [apply still_property|intros []; apply still_ret].
  Qed.
  Lemma property_name_fall : fall None (t_p_property_name src) (t_p_property_name src).
  Proof.
    unfold t_p_property_name. apply next_fall; [mono_tac|]. intros t. destruct (tk_kind t); try (right; apply fling_throw; reflexivity).
    apply calm_drop. bd @calm_bind; [exact (still_calm _ _ (still_property _ _))|intros []; apply calm_ret].
  Qed.
  Lemma parse_reference_pro : pro None (t_parse_reference src) (t_parse_reference src).
  Proof.
    unfold t_parse_reference. apply next_pro; [mono_tac|]. intros t. destruct (tk_kind t); try (right; apply pro_never; intros; apply never_throw).
    left. apply still_reference.
  Qed.
  Lemma parse_reference_fall : fall None (t_parse_reference src) (t_parse_reference src).
  Proof.
    unfold t_parse_reference. apply next_fall; [mono_tac|]. intros t. destruct (tk_kind t); try (right; apply fling_throw; reflexivity).
    apply calm_drop. exact (still_calm _ _ (still_reference _ _)).
  Qed.
  Lemma memreserve_pro : pro None (t_memreserve_number src) (t_memreserve_number src).
  Proof.
    unfold t_memreserve_number. apply next_pro; [mono_tac|]. intros t.
    destruct (tk_kind t); try (right; apply pro_never; intros l a l1 K; discriminate K).
    left. destruct (parse_number u64_lim s); [apply still_ret|]. bd @still_bind; [apply still_push|intros []; apply still_ret].
  Qed.
  Lemma memreserve_fall : fall None (t_memreserve_number src) (t_memreserve_number src).
  Proof.
    unfold t_memreserve_number. apply next_fall; [mono_tac|]. intros t.
    destruct (tk_kind t); try (right; bd @fling_first; [apply still_last|intros p]; bd @fling_first; [apply still_source|intros x]; apply fling_throw; reflexivity).
    apply calm_drop. destruct (parse_number u64_lim s); [apply calm_ret|]. bd @calm_bind; [apply calm_push|intros []; apply calm_ret].
  Qed.
  Lemma expect_pro k : pro None (t_expect src k) (t_expect src k).
  Proof.
    intros [|x l] a l1 _ H; [discriminate H|]. unfold yes, t_expect, t_bind, t_cur_pos, t_next, t_source, t_ret, t_throw in H. cbn [t_toks t_diags hd_error tl] in H.
    destruct (kind_eqb (tk_kind x) k) eqn:E; [|discriminate H]. injection H as <- <-. exists [x]. split; [reflexivity|]. split; [discriminate|]. intros q.
    unfold yes, t_expect, t_bind, t_cur_pos, t_next, t_source, t_ret, t_throw. cbn [t_toks t_diags hd_error tl app]. rewrite E. reflexivity.
  Qed.
  Lemma expect_fall k : fall None (t_expect src k) (t_expect src k).
  Proof.
    intros [|x l] d _ [l1 H] He.
    - injection H as <- _. destruct (He eq_refl).
    - unfold t_expect, t_bind, t_cur_pos, t_next, t_source, t_ret, t_throw in H. cbn [t_toks t_diags hd_error tl] in H.
      destruct (kind_eqb (tk_kind x) k) eqn:E; [discriminate H|]. injection H as <- _. exists [], x, l. split; [reflexivity|]. split.
      + intros _. exists (eof_diag pos_zero src). split; [exists []; reflexivity|reflexivity].
      + split; [reflexivity|]. intros q. exists q. unfold t_expect, t_bind, t_cur_pos, t_next, t_source, t_ret, t_throw. cbn [t_toks t_diags hd_error tl app]. rewrite E. reflexivity.
  Qed.

  (** runs that are grouped differently *)
  Lemma assoc_pro {A B C} h (m m' : TM A) (j j' : A -> TM B) (k k' : B -> TM C) :
    pro h (t_bind m (fun a => t_bind (j a) k)) (t_bind m' (fun a => t_bind (j' a) k')) -> pro h (t_bind (t_bind m j) k) (t_bind (t_bind m' j') k').
  Proof.
    assert (E : forall (m : TM A) (j : A -> TM B) (k : B -> TM C) s, t_bind (t_bind m j) k s = t_bind m (fun a => t_bind (j a) k) s)
      by (intros; unfold t_bind; destruct (m0 s); reflexivity).
    intros H l a l1 Hf Hy. unfold yes in *. rewrite E in Hy. destruct (H l a l1 Hf Hy) as (c & H1 & H2 & H3). exists c. split; [exact H1|]. split; [exact H2|].
    intros q. rewrite E. exact (H3 q).
  Qed.
  Lemma assoc_drop {A B C} tk (m m' : TM A) (j j' : A -> TM B) (k k' : B -> TM C) :
    drop tk (t_bind m (fun a => t_bind (j a) k)) (t_bind m' (fun a => t_bind (j' a) k')) -> drop tk (t_bind (t_bind m j) k) (t_bind (t_bind m' j') k').
  Proof.
    assert (E : forall (m : TM A) (j : A -> TM B) (k : B -> TM C) s, t_bind (t_bind m j) k s = t_bind m (fun a => t_bind (j a) k) s)
      by (intros; unfold t_bind; destruct (m0 s); reflexivity).
    intros [H|H]; [left|right].
    - intros l d Hf [l1 Hn] He. rewrite E in Hn. destruct (H l d Hf (ex_intro _ l1 Hn) He) as (pre & t & post & H1 & H2 & W & H3).
      exists pre, t, post. split; [exact H1|]. split.
      + intros K. destruct (H2 K) as (e & [l2 H4] & H5). exists e. split; [exists l2; rewrite E; exact H4|exact H5].
      + split; [exact W|]. intros q. destruct (H3 q) as [l2 H4]. exists l2. rewrite E. exact H4.
    - intros l d [l1 Hn] He. rewrite E in Hn. destruct (H l d (ex_intro _ l1 Hn) He) as [W P]. split; [exact W|]. intros q. destruct (P q) as [l2 H4]. exists l2. rewrite E. exact H4.
  Qed.
  Lemma ret_pro {A B} h (a : A) (k k' : A -> TM B) : pro h (k a) (k' a) -> pro h (t_bind (t_ret a) k) (t_bind (t_ret a) k').
  Proof. intros H. exact H. Qed.
  Lemma ret_drop {A B} t (a : A) (k k' : A -> TM B) : drop t (k a) (k' a) -> drop t (t_bind (t_ret a) k) (t_bind (t_ret a) k').
  Proof. intros H. exact H. Qed.
  Lemma drop_first {A B} t (m m' : TM A) (k k' : A -> TM B) : mono m -> (forall a, mono (k a)) ->
    still m m' -> (forall a, fall None (k a) (k' a)) -> drop t (t_bind m k) (t_bind m' k').
  Proof. intros Hm Hk H1 H2. left. apply fall_first; assumption. Qed.
  Lemma next_drop {B} tk (k k' : token -> TM B) : (forall a, mono (k a)) -> (forall t, drop t (k t) (k' t)) -> drop tk (t_bind (t_expect_next src) k) (t_bind (t_expect_next src) k').
  Proof. intros Hk H. left. apply next_fall; assumption. Qed.

  Notation rest := (GrammarComplete.rest_of_item src).
  Lemma mono_rest r f items nd t o lb : mono (rest r f items nd t o lb).
  Proof. unfold GrammarComplete.rest_of_item. mono_tac. Qed.
  Lemma payload_is r f items nd : t_payload_loop src r (S f) items nd =
    let^ tok := t_expect_next src in
    if kind_eqb (tk_kind tok) (Directive DeleteNode) then
      let^ n := t_p_node_name src in t_expect_semicolon src r ;^ t_payload_loop src r f (items ++ [IDeletedNode tok n]) nd
    else if kind_eqb (tk_kind tok) (Directive DeleteProperty) then
      let^ n := t_p_property_name src in t_expect_semicolon src r ;^ t_payload_loop src r f (items ++ [IDeletedProperty tok n]) nd
    else
      let^ (tok, omit) := (if kind_eqb (tk_kind tok) (Directive OmitIfNoRef) then let^ t := t_expect_next src in t_ret (t, Some tok) else t_ret (tok, None)) in
      let^ (tok, label) :=
        (match tk_kind tok with
         | Label s => t_check_is_label src (tk_span tok) s ;^ let^ t := t_expect_next src in t_ret (t, Some (mkWT s tok))
         | _ => t_ret (tok, None)
         end) in
      rest r f items nd tok omit label.
  Proof. reflexivity. Qed.
  Lemma rest_pro f items nd t o lb : (forall items nd, pro None (t_payload_loop src rl f items nd) (t_payload_loop src rl' f items nd)) ->
    pro None (rest rl f items nd t o lb) (rest rl' f items nd t o lb).
  Proof.
    intros IH. unfold GrammarComplete.rest_of_item. destruct (tk_kind t); try (apply pro_never; intros; apply never_throw).
    - bd @pro_still; [apply semicolon_pro|intros e; apply still_ret].
    - apply peek_pro; [mono_tac|]. intros t2. destruct (tk_kind t2); try (apply pro_never; intros l a l1 K; discriminate K).
      + apply skip_pro; [mono_tac|]. bd @pro_first; [apply still_property|intros []]. cbv zeta.
        bd @pro_first; [apply still_order|intros []]. bd @pro_first; [apply still_omit|intros []]. apply IH.
      + apply skip_pro; [mono_tac|]. bd @pro_first; [apply still_property|intros []]. bd @cut_pro; [apply values_cut|intros vs].
        bd @cut_pro; [apply pro_cut, semicolon_pro|intros e]. bd @pro_first; [apply still_omit|intros []]. cbv zeta. bd @pro_first; [apply still_order|intros []]. apply IH.
      + cbv zeta. bd @pro_first; [apply still_node|intros []]. apply weak_pro. bd @cut_pro; [apply pro_cut, expect_pro|intros x]. bd @cut_pro; [apply pro_cut, IH|intros pl]. apply IH.
  Qed.
  Lemma payload_pro f : forall items nd, pro None (t_payload_loop src rl f items nd) (t_payload_loop src rl' f items nd).
  Proof.
    induction f as [|f IH]; intros items nd; [apply pro_never, never_nofuel|]. rewrite !payload_is.
    assert (Mr : forall r items nd t o lb, mono (rest r f items nd t o lb)) by (intros; apply mono_rest).
    apply next_pro; [mono_tac|]. intros t. right.
    destruct (kind_eqb (tk_kind t) (Directive DeleteNode)); [|destruct (kind_eqb (tk_kind t) (Directive DeleteProperty))].
    - bd @cut_pro; [apply pro_cut, node_name_pro|intros n]. bd @cut_pro; [apply pro_cut, semicolon_pro|intros e]. apply IH.
    - bd @cut_pro; [apply pro_cut, property_name_pro|intros n]. bd @cut_pro; [apply pro_cut, semicolon_pro|intros e]. apply IH.
    - assert (L : forall t o, pro None (let^ (tok, label) := (match tk_kind t with
         | Label s => t_check_is_label src (tk_span t) s ;^ let^ t0 := t_expect_next src in t_ret (t0, Some (mkWT s t))
         | _ => t_ret (t, None) end) in rest rl f items nd tok o label)
         (let^ (tok, label) := (match tk_kind t with
         | Label s => t_check_is_label src (tk_span t) s ;^ let^ t0 := t_expect_next src in t_ret (t0, Some (mkWT s t))
         | _ => t_ret (t, None) end) in rest rl' f items nd tok o label)).
      { intros u o. destruct (tk_kind u); try (apply ret_pro, rest_pro, IH).
        apply assoc_pro. bd @pro_first; [apply still_label|intros []]. apply assoc_pro. apply next_pro; [mono_tac|]. intros u2. right. apply ret_pro, rest_pro, IH. }
      destruct (kind_eqb (tk_kind t) (Directive OmitIfNoRef)); [|apply ret_pro, L]. apply assoc_pro, next_pro; [mono_tac|]. intros u. right. apply ret_pro, L.
  Qed.
  Lemma rest_drop f items nd t o lb : (forall items nd, fall None (t_payload_loop src rl f items nd) (t_payload_loop src rl' f items nd)) ->
    drop t (rest rl f items nd t o lb) (rest rl' f items nd t o lb).
  Proof.
    intros IH. pose proof (payload_pro f) as PL. unfold GrammarComplete.rest_of_item. destruct (tk_kind t); try (right; apply fling_throw; reflexivity).
    - apply calm_drop. bd @calm_bind; [apply semicolon_calm|intros e; apply calm_ret].
    - left. apply peek_fall; [mono_tac|]. intros t2.
      destruct (tk_kind t2); try (bd @fall_first; [apply still_last|intros p]; bd @fall_first; [apply still_source|intros x]; apply fall_throw; reflexivity).
      + apply skip_fall. bd @fall_first; [apply still_property|intros []]. cbv zeta.
        bd @fall_first; [apply still_order|intros []]. bd @fall_first; [apply still_omit|intros []]. apply IH.
      + apply skip_fall. bd @fall_first; [apply still_property|intros []]. fb; [apply values_cut|apply values_fall|intros vs].
        fb; [apply pro_cut, semicolon_pro|apply calm_fall, semicolon_calm|intros e]. bd @fall_first; [apply still_omit|intros []]. cbv zeta. bd @fall_first; [apply still_order|intros []]. apply IH.
      + cbv zeta. bd @fall_first; [apply still_node|intros []]. apply weak_fall. fb; [apply pro_cut, expect_pro|apply expect_fall|intros x].
        fb; [apply pro_cut, PL|apply IH|intros pl]. apply IH.
  Qed.
  Lemma payload_fall f : forall items nd, fall None (t_payload_loop src rl f items nd) (t_payload_loop src rl' f items nd).
  Proof.
    induction f as [|f IH]; intros items nd; [apply calm_fall, calm_nofuel|]. rewrite !payload_is.
    assert (Mr : forall r items nd t o lb, mono (rest r f items nd t o lb)) by (intros; apply mono_rest).
    apply next_fall; [mono_tac|]. intros t.
    destruct (kind_eqb (tk_kind t) (Directive DeleteNode)); [|destruct (kind_eqb (tk_kind t) (Directive DeleteProperty))].
    - left. fb; [apply pro_cut, node_name_pro|apply node_name_fall|intros n]. fb; [apply pro_cut, semicolon_pro|apply calm_fall, semicolon_calm|intros e]. apply IH.
    - left. fb; [apply pro_cut, property_name_pro|apply property_name_fall|intros n]. fb; [apply pro_cut, semicolon_pro|apply calm_fall, semicolon_calm|intros e]. apply IH.
    - assert (L : forall t o, drop t (let^ (tok, label) := (match tk_kind t with
         | Label s => t_check_is_label src (tk_span t) s ;^ let^ t0 := t_expect_next src in t_ret (t0, Some (mkWT s t))
         | _ => t_ret (t, None) end) in rest rl f items nd tok o label)
         (let^ (tok, label) := (match tk_kind t with
         | Label s => t_check_is_label src (tk_span t) s ;^ let^ t0 := t_expect_next src in t_ret (t0, Some (mkWT s t))
         | _ => t_ret (t, None) end) in rest rl' f items nd tok o label)).
      { intros u o. destruct (tk_kind u); try (apply ret_drop, rest_drop, IH).
        apply assoc_drop. bd @drop_first; [apply still_label|intros []]. 
        assert (D : drop u (t_bind (t_bind (t_expect_next src) (fun t0 => t_ret (t0, Some (mkWT s u)))) (fun '(tok, label) => rest rl f items nd tok o label))
          (t_bind (t_bind (t_expect_next src) (fun t0 => t_ret (t0, Some (mkWT s u)))) (fun '(tok, label) => rest rl' f items nd tok o label))).
        { apply assoc_drop, next_drop; [mono_tac|]. intros u2. apply ret_drop, rest_drop, IH. }
        destruct D as [D|D]; [exact D|]. intros l d _ Hn He. destruct (proj2 (D _ _ Hn He) []) as [l1 K]. injection K as <- _. destruct (He eq_refl). }
      destruct (kind_eqb (tk_kind t) (Directive OmitIfNoRef)); [|apply ret_drop, L]. apply assoc_drop, next_drop; [mono_tac|]. intros u. apply ret_drop, L.
  Qed.
  Lemma node_payload_pro f : pro None (t_node_payload src rl f) (t_node_payload src rl' f).
  Proof. unfold t_node_payload. bd @cut_pro; [apply pro_cut, expect_pro|intros x]. apply payload_pro. Qed.
  Lemma node_payload_fall f : fall None (t_node_payload src rl f) (t_node_payload src rl' f).
  Proof. unfold t_node_payload. fb; [apply pro_cut, expect_pro|apply expect_fall|intros x]. apply payload_fall. Qed.

  (** ** Files *)
  Definition cut1 {A} (m m' : TM A) : Prop := forall l a l1, yes m l a l1 ->
    exists c, l = c ++ l1 /\ c <> [] /\ (forall q, same_head l1 q -> yes m' (c ++ q) a q) /\ (yes m' c a [] \/ exists d, no m' c d /\ eof d).
  Lemma next_cut1 {B} (k k' : token -> TM B) : (forall t, cut None (k t) (k' t)) -> cut1 (t_bind (t_expect_next src) k) (t_bind (t_expect_next src) k').
  Proof.
    intros H [|x l] a l1 Hy; [discriminate Hy|]. assert (Hb : yes (k x) l a l1) by exact Hy. destruct (H x _ _ _ I Hb) as (c & -> & Q & E).
    exists (x :: c). split; [reflexivity|]. split; [discriminate|]. split; [exact Q|exact (E I)].
  Qed.
  Lemma cut1_cut {A} (m m' : TM A) : cut1 m m' -> cut None m m'.
  Proof. intros H l a l1 _ Hy. destruct (H _ _ _ Hy) as (c & E & _ & Q & T). exists c. split; [exact E|]. split; [exact Q|]. intros _. exact T. Qed.
  Lemma include_cut tok w : cut None
    (let^ t2 := t_peek in
     (match t2 with
      | Some tok2 => if kind_eqb (tk_kind tok2) Semicolon then let^ tok3 := t_expect_next src in
          t_push (diag_from_token tok3 ParserError (bs "Include directive must not end with a semicolon")) else t_ret tt
      | None => t_ret tt end) ;^ let^ paths := t_include_paths incl in t_ret (PDirective (AInclude (mkInclude tok w paths))))
    (let^ t2 := t_peek in
     (match t2 with
      | Some tok2 => if kind_eqb (tk_kind tok2) Semicolon then let^ tok3 := t_expect_next src in
          t_push (diag_from_token tok3 ParserError (bs "Include directive must not end with a semicolon")) else t_ret tt
      | None => t_ret tt end) ;^ let^ paths := t_include_paths incl in t_ret (PDirective (AInclude (mkInclude tok w paths)))).
  Proof.
    intros [|x l] a l1 _ H.
    - injection H as <- <-. exists []. split; [reflexivity|]. split; [intros q (y & r & r' & E & _); discriminate E|]. intros _. left. reflexivity.
    - unfold yes, t_bind at 1, t_peek in H. cbn [t_toks hd_error] in H. destruct (kind_eqb (tk_kind x) Semicolon) eqn:E; [discriminate H|]. injection H as <- <-.
      exists []. split; [reflexivity|]. split; [|intros _; left; reflexivity]. intros q (y & r & r' & K & ->). injection K as <- <-.
      unfold yes, t_bind at 1, t_peek. cbn [t_toks hd_error app]. rewrite E. reflexivity.
  Qed.
  Lemma include_calm tok w : calm
    (let^ t2 := t_peek in
     (match t2 with
      | Some tok2 => if kind_eqb (tk_kind tok2) Semicolon then let^ tok3 := t_expect_next src in
          t_push (diag_from_token tok3 ParserError (bs "Include directive must not end with a semicolon")) else t_ret tt
      | None => t_ret tt end) ;^ let^ paths := t_include_paths incl in t_ret (PDirective (AInclude (mkInclude tok w paths)))).
  Proof.
    bd @calm_bind; [apply calm_peek|]. intros t2. bd @calm_bind; [|intros []; bd @calm_bind; [apply calm_ret|intros p; apply calm_ret]].
    destruct t2 as [u|]; [|apply calm_ret]. destruct (kind_eqb (tk_kind u) Semicolon); [|apply calm_ret]. bd @calm_bind; [apply calm_next|intros x; apply calm_push].
  Qed.
  Lemma primary_cut f : cut1 (t_p_primary src incl rl f) (t_p_primary src incl rl' f).
  Proof.
    unfold t_p_primary. apply next_cut1. intros t. destruct (tk_kind t); try (apply cut_never; intros; apply never_throw).
    - apply pro_cut. bd @pro_still; [apply node_payload_pro|intros pl; apply still_ret].
    - destruct (str_eqb s (bs "#include")); [|apply cut_never; intros; apply never_throw]. apply pro_cut, next_pro; [mono_tac|]. intros u.
      destruct (tk_kind u); try (right; apply pro_never; intros; apply never_throw). left. apply still_ret.
    - destruct d; try (apply cut_never; intros; apply never_throw).
      + apply pro_cut. bd @pro_still; [apply semicolon_pro|intros e; apply still_ret].
      + apply pro_cut. bd @cut_pro; [apply pro_cut, memreserve_pro|intros a1]. bd @cut_pro; [apply pro_cut, memreserve_pro|intros a2].
        bd @pro_still; [apply semicolon_pro|intros e; apply still_ret].
      + apply pro_cut. bd @cut_pro; [apply pro_cut, parse_reference_pro|intros w]. bd @pro_still; [apply semicolon_pro|intros e; apply still_ret].
      + apply pro_cut. bd @pro_still; [apply semicolon_pro|intros e; apply still_ret].
      + apply pro_cut. bd @cut_pro; [apply pro_cut, parse_reference_pro|intros w]. bd @pro_still; [apply semicolon_pro|intros e; apply still_ret].
      + apply cut1_cut, next_cut1. intros u. destruct (tk_kind u); try (apply cut_never; intros; apply never_throw). apply include_cut.
    - bd @cut_first; [apply still_reference|intros w]. apply pro_cut. bd @pro_still; [apply node_payload_pro|intros pl; apply still_ret].
  Qed.
  Lemma primary_fall f : fall None (t_p_primary src incl rl f) (t_p_primary src incl rl' f).
  Proof.
    unfold t_p_primary. apply next_fall; [mono_tac|]. intros t. destruct (tk_kind t); try (right; apply fling_throw; reflexivity).
    - left. fb; [apply pro_cut, node_payload_pro|apply node_payload_fall|intros pl; apply calm_fall, calm_ret].
    - destruct (str_eqb s (bs "#include")); [|right; apply fling_throw; reflexivity]. left. apply next_fall; [mono_tac|]. intros u.
      destruct (tk_kind u); try (right; apply fling_throw; reflexivity). apply calm_drop, calm_ret.
    - destruct d; try (right; apply fling_throw; reflexivity); left.
      + fb; [apply pro_cut, semicolon_pro|apply calm_fall, semicolon_calm|intros e; apply calm_fall, calm_ret].
      + fb; [apply pro_cut, memreserve_pro|apply memreserve_fall|intros a1]. fb; [apply pro_cut, memreserve_pro|apply memreserve_fall|intros a2].
        fb; [apply pro_cut, semicolon_pro|apply calm_fall, semicolon_calm|intros e; apply calm_fall, calm_ret].
      + fb; [apply pro_cut, parse_reference_pro|apply parse_reference_fall|intros w]. fb; [apply pro_cut, semicolon_pro|apply calm_fall, semicolon_calm|intros e; apply calm_fall, calm_ret].
      + fb; [apply pro_cut, semicolon_pro|apply calm_fall, semicolon_calm|intros e; apply calm_fall, calm_ret].
      + fb; [apply pro_cut, parse_reference_pro|apply parse_reference_fall|intros w]. fb; [apply pro_cut, semicolon_pro|apply calm_fall, semicolon_calm|intros e; apply calm_fall, calm_ret].
      + apply next_fall; [mono_tac|]. intros u. destruct (tk_kind u); try (right; apply fling_throw; reflexivity). apply calm_drop, include_calm.
    - left. bd @fall_first; [apply still_reference|intros w]. fb; [apply pro_cut, node_payload_pro|apply node_payload_fall|intros pl; apply calm_fall, calm_ret].
  Qed.
  Lemma loop_fall f : forall acc l d, no (t_file_loop src incl rl f acc) l d -> ~ eof d ->
    exists pre t post, l = pre ++ t :: post
      /\ ((exists ps, yes (t_file_loop src incl rl' f acc) pre ps []) \/ exists e, no (t_file_loop src incl rl' f acc) pre e /\ eof e)
      /\ dg_span d = tk_span t /\ forall q, no (t_file_loop src incl rl' f acc) (pre ++ t :: q) d.
  Proof.
    induction f as [|f IH]; intros acc l d Hn He; [destruct Hn as [l1 Hn]; discriminate Hn|].
    set (body := fun r => t_bind (t_p_primary src incl r f) (fun p => t_file_loop src incl r f (acc ++ [p]))).
    assert (R : forall r x q, t_file_loop src incl r (S f) acc (mkTS (x :: q) []) = body r (mkTS (x :: q) [])) by reflexivity.
    assert (R0 : yes (t_file_loop src incl rl' (S f) acc) [] acc []) by reflexivity.
    destruct l as [|x l]; [destruct Hn as [l1 Hn]; discriminate Hn|].
    assert (Hb : no (body rl) (x :: l) d) by (destruct Hn as [l1 Hn]; exists l1; rewrite <- R; exact Hn).
    apply no_bind in Hb; [|mono_tac|mono_tac]. destruct Hb as [Hb|(p & l1 & Hp & Hb)].
    - destruct (primary_fall f _ _ I Hb He) as (pre & t & post & E & L & W & P). exists pre, t, post. split; [exact E|]. destruct pre as [|y pre].
      + split; [left; exists acc; exact R0|]. split; [exact W|]. intros q. destruct (bind_no1 _ (fun p => t_file_loop src incl rl' f (acc ++ [p])) _ _ (P q)) as [l2 K].
        exists l2. cbn [app] in *. rewrite R. exact K.
      + split.
        * right. destruct (L I) as (e & L1 & L2). exists e. split; [|exact L2].
          destruct (bind_no1 _ (fun p => t_file_loop src incl rl' f (acc ++ [p])) _ _ L1) as [l2 K]. exists l2. rewrite R. exact K.
        * split; [exact W|]. intros q. destruct (bind_no1 _ (fun p => t_file_loop src incl rl' f (acc ++ [p])) _ _ (P q)) as [l2 K]. exists l2. cbn [app] in *. rewrite R. exact K.
    - destruct (primary_cut f _ _ _ Hp) as (c & E & N & Q & T). destruct (IH _ _ _ Hb He) as (pre & t & post & -> & L & W & P).
      destruct c as [|y c]; [destruct (N eq_refl)|]. exists ((y :: c) ++ pre), t, post. split; [rewrite E; apply app_assoc|]. split.
      + assert (D : yes (t_p_primary src incl rl' f) ((y :: c) ++ pre) p pre \/ exists e, no (t_p_primary src incl rl' f) ((y :: c) ++ pre) e /\ eof e).
        { destruct pre as [|z pre]; [rewrite app_nil_r; exact T|left; apply Q; eexists z, _, _; split; reflexivity]. }
        cbn [app] in *. destruct D as [D|(e & D & De)].
        * destruct L as [[ps L]|(e & L & Le)].
          -- left. exists ps. unfold yes. rewrite R. exact (bind_yes _ _ _ _ _ _ _ D L).
          -- right. exists e. split; [|exact Le]. destruct (bind_no _ (fun p => t_file_loop src incl rl' f (acc ++ [p])) _ _ _ _ D L) as [l2 K]. exists l2. rewrite R. exact K.
        * right. exists e. split; [|exact De]. destruct (bind_no1 _ (fun p => t_file_loop src incl rl' f (acc ++ [p])) _ _ D) as [l2 K]. exists l2. rewrite R. exact K.
      + split; [exact W|]. intros q. rewrite <- app_assoc. assert (D : yes (t_p_primary src incl rl' f) ((y :: c) ++ pre ++ t :: q) p (pre ++ t :: q)).
        { apply Q. destruct pre as [|z pre]; eexists _, _, _; split; reflexivity. }
        cbn [app] in *. destruct (bind_no _ (fun p => t_file_loop src incl rl' f (acc ++ [p])) _ _ _ _ D (P q)) as [l2 K]. exists l2. rewrite R. exact K.
  Qed.
  Lemma file_fall f l d : no (t_p_file src incl rl f) l d -> ~ eof d ->
    exists pre t post, l = pre ++ t :: post
      /\ ((exists x, yes (t_p_file src incl rl' f) pre x []) \/ exists e, no (t_p_file src incl rl' f) pre e /\ eof e)
      /\ dg_span d = tk_span t /\ forall q, no (t_p_file src incl rl' f) (pre ++ t :: q) d.
  Proof.
    unfold t_p_file. intros H He. apply no_bind in H; [|mono_tac|mono_tac]. destruct H as [H|(ps & l1 & _ & [l2 H])]; [|discriminate H].
    destruct (loop_fall f [] l d H He) as (pre & t & post & E & L & W & P). exists pre, t, post. split; [exact E|]. split.
    - destruct L as [[ps L]|(e & L & Le)]; [left; exists (mkFile ps src); exact (bind_yes _ _ _ _ _ _ _ L eq_refl)|right; exists e; split; [exact (bind_no1 _ _ _ _ L)|exact Le]].
    - split; [exact W|]. intros q. exact (bind_no1 _ _ _ _ (P q)).
  Qed.
End First.

