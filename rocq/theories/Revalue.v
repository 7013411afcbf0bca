(** Other numbers, bytes, strings and names of properties in a text: the syntax tree but for what they are *)
From Verif Require Import Lexer Parser LexSpec Grammar LexerProofs2 PropsGrammar Utf8.
From Coq Require Import Lia List.
Import ListNotations.

(** whether names of properties may change, too *)
Class name_change := may_rename : bool.
Section Names.
Context {names : name_change}.

(** ** Trees without the numbers and strings they hold *)
Definition s_kind (k : token_kind) : token_kind :=
  match k with TString _ => TString [] | UnparsedNumber _ => UnparsedNumber [] | _ => k end.
Definition s_tok (t : token) : token := mkToken (s_kind (tk_kind t)) (tk_span t) (tk_source t).
Definition s_cell (c : cell) : cell := match c with CNumber w => CNumber (mkWT 0 (s_tok (wt_tok w))) | _ => c end.
(** the bytes [12 ab] are a number and a name to the lexer *)
Definition s_bytes (w : wtok str) : wtok str := mkWT [] (mkToken (UnparsedNumber []) (wt_span w) (wt_source w)).
Definition s_value (v : prop_value) : prop_value :=
  match v with
  | PVString w => PVString (mkWT [] (s_tok (wt_tok w)))
  | PVCells a cs b => PVCells a (map s_cell cs) b
  | PVBytes a l b => PVBytes a (map s_bytes l) b
  | PVReference _ => v
  end.
(** the name compatible means something to the analysis *)
Definition s_name (w : wtok str) : wtok str :=
  if may_rename && negb (str_eqb (wt_item w) (bs "compatible")) then mkWT [] (mkToken (Ident []) (wt_span w) (wt_source w)) else w.
Definition s_property (p : property) : property := mkProp (pr_label p) (s_name (pr_name p)) (map s_value (pr_values p)) (pr_end p).
Fixpoint s_item (i : item) : item :=
  match i with
  | IProperty p => IProperty (s_property p)
  | INode n => INode (s_node n)
  | _ => i
  end
with s_node (n : node) : node :=
  match n with mkNode lb nm pl o => mkNode lb nm (s_payload pl) o end
with s_payload (p : payload) : payload :=
  match p with
  | mkPayload its e =>
    mkPayload ((fix go (l : list item) : list item := match l with [] => [] | i :: r => s_item i :: go r end) its) e
  end.
Definition s_primary (p : primary) : primary :=
  match p with
  | PRoot n => PRoot (s_node n)
  | PReferencedNode r => PReferencedNode (mkRefNode (rn_reference r) (s_payload (rn_payload r)))
  | PDirective (AMemreserve x y) => PDirective (AMemreserve (mkWT 0 (s_tok (wt_tok x))) (mkWT 0 (s_tok (wt_tok y))))
  | _ => p
  end.
Definition s_file (f : dts_file) : dts_file := mkFile (map s_primary (fl_elements f)) (fl_source f).
Lemma s_payload_items its e : s_payload (mkPayload its e) = mkPayload (map s_item its) e.
Proof. reflexivity. Qed.

(** ** Tokens *)
(** Where a token is: after [/include/] or [#include], in cells, in a byte string, after [/memreserve/], after [/bits/],
    after a deletion, or elsewhere *)
Inductive place := Plain | FileName | Cells | Bytes | Reserve | Width | Target.
Definition next (m : place) (t : token) : place :=
  match tk_kind t with
  | Semicolon | OpenBrace | CloseBrace | CloseBracket | ChevronRight => Plain
  | ChevronLeft | CloseParen => Cells
  | OpenBracket => Bytes
  | Directive d => match d with Include => FileName | MemReserve => Reserve | Bits => Width | DeleteNode | DeleteProperty => Target | _ => Plain end
  | Ident s => match m with Cells => Cells | Bytes => Bytes | _ => if str_eq_dec s (bs "#include") then FileName else Plain end
  | UnparsedNumber _ => match m with Cells => Cells | Bytes => Bytes | Reserve => Reserve | _ => Plain end
  | _ => match m with Cells => Cells | Bytes => Bytes | _ => Plain end
  end.
(** [swapped m t t']: at the place [m] the token [t'] may be written for [t] *)
Inductive swapped : place -> token -> token -> Prop :=
| sw_string m t t' s s' : m <> FileName -> is (TString s) t -> is (TString s') t' -> swapped m t t'
| sw_cell t t' s s' n : is (UnparsedNumber s) t -> is (UnparsedNumber s') t' -> literal s' n -> n < 2 ^ 32 -> swapped Cells t t'
| sw_reserve t t' s s' n : is (UnparsedNumber s) t -> is (UnparsedNumber s') t' -> literal s' n -> n < 2 ^ 64 -> swapped Reserve t t'
| sw_width t t' s s' : is (UnparsedNumber s) t -> is (UnparsedNumber s') t' -> swapped Width t t'
| sw_bytes t t' s s' b : element_text t s -> element_text t' s' -> byte_text s' b -> swapped Bytes t t'.
(** [revalued m l l']: [l'] has the tokens of [l] at the same places, but other strings, numbers and bytes, and other names of properties *)
Inductive revalued : place -> list token -> list token -> Prop :=
| rv_nil m : revalued m [] []
| rv_same m t l l' : revalued (next m t) l l' -> revalued m (t :: l) (t :: l')
| rv_other m t t' l l' : swapped m t t' -> tk_span t' = tk_span t -> tk_source t' = tk_source t -> revalued (next m t) l l' ->
    revalued m (t :: l) (t' :: l')
| rv_name t t' s s' q l l' : may_rename = true -> is (Ident s) t -> is (Ident s') t' -> s <> bs "compatible" -> s' <> bs "compatible" ->
    legal_property_name s' -> is Equal q \/ is Semicolon q -> tk_span t' = tk_span t -> tk_source t' = tk_source t ->
    revalued (next Plain t) (q :: l) (q :: l') -> revalued Plain (t :: q :: l) (t' :: q :: l').

(** tokens that are never exchanged *)
Definition fixed (k : token_kind) : Prop := match k with TString _ | UnparsedNumber _ | Ident _ => False | _ => True end.
Lemma swapped_fixed m t t' k : swapped m t t' -> fixed k -> ~ is k t /\ ~ is k t'.
Proof.
  unfold is. intros W F.
  destruct W as [m t t' s s' M A B|t t' s s' n A B Li Lt|t t' s s' n A B Li Lt|t t' s s' A B|t t' s s' b [A|A] [B|B] By];
    unfold is in *; split; intros E; rewrite <- E in F; first [rewrite A in F|rewrite B in F]; exact F.
Qed.
Lemma rv_cons m t l L : revalued m (t :: l) L ->
  exists t' L', L = t' :: L' /\ (forall k, fixed k -> is k t' -> is k t) /\ revalued (next m t) l L'.
Proof.
  intros H. inversion H as [|? ? ? L' R|? ? t' ? L' W C D R|? t' s1 s' q l0 L' Nm A B Ns Ns' Lg Q C D R]; subst.
  - exists t, L'. auto.
  - exists t', L'. split; [reflexivity|]. split; [|exact R]. intros k F K. destruct (proj2 (swapped_fixed _ _ _ _ W F) K).
  - exists t', (q :: L'). split; [reflexivity|]. split; [|exact R]. intros k F K. unfold is in *. rewrite <- K, B in F. destruct F.
Qed.
Lemma rv_keep m t l L : revalued m (t :: l) L -> fixed (tk_kind t) -> exists L', L = t :: L' /\ revalued (next m t) l L'.
Proof.
  intros H F. inversion H as [|? ? ? L' R|? ? t' ? L' W C D R|? t' s1 s' q l0 L' Nm A B Ns Ns' Lg Q C D R]; subst.
  - exists L'. auto.
  - destruct (proj1 (swapped_fixed _ _ _ _ W F) eq_refl).
  - unfold is in A. rewrite A in F. destruct F.
Qed.
Lemma rv_keep_name m t s l L : revalued m (t :: l) L -> is (Ident s) t -> m <> Bytes ->
  m <> Plain \/ (exists b r, l = b :: r /\ ~ is Equal b /\ ~ is Semicolon b) -> exists L', L = t :: L' /\ revalued (next m t) l L'.
Proof.
  intros H I M X. inversion H as [|? ? ? L' R|? ? t' ? L' W C D R|? t' s1 s' q l0 L' Nm A B Ns Ns' Lg Q C D R]; subst.
  - exists L'. auto.
  - unfold is in *. inversion W; subst; unfold is in *; congruence.
  - exfalso. destruct X as [X|(b & r & E & X1 & X2)]; [congruence|]. injection E as -> ->. destruct Q; contradiction.
Qed.
Lemma rv_property_name m t s l L : revalued m (t :: l) L -> is (Ident s) t -> legal_property_name s -> m <> Bytes ->
  exists t' s' L', L = t' :: L' /\ is (Ident s') t' /\ legal_property_name s' /\ s_name (mkWT s' t') = s_name (mkWT s t) /\ revalued (next m t) l L'.
Proof.
  intros H I Lg0 M. inversion H as [|? ? ? L' R|? ? t' ? L' W C D R|? t' s1 s' q l0 L' Nm A B Ns Ns' Lg Q C D R]; subst.
  - exists t, s, L'. auto.
  - unfold is in *. inversion W; subst; unfold is in *; congruence.
  - exists t', s', (q :: L'). split; [reflexivity|]. split; [exact B|]. split; [exact Lg|]. split; [|exact R].
    assert (s1 = s) as -> by (unfold is in *; congruence). unfold s_name. cbn [wt_item]. rewrite Nm. cbn [andb]. unfold str_eqb, wt_span, wt_source. cbn [wt_tok].
    destruct (str_eq_dec s' (bs "compatible")); [contradiction|]. destruct (str_eq_dec s (bs "compatible")); [contradiction|]. cbn [negb andb].
    rewrite C, D. reflexivity.
Qed.
Lemma rv_keep_file t s l L : revalued FileName (t :: l) L -> is (TString s) t -> exists L', L = t :: L' /\ revalued (next FileName t) l L'.
Proof.
  intros H I. inversion H as [|? ? ? L' R|? ? t' ? L' W C D R|]; subst; [exists L'; auto|].
  unfold is in *. inversion W; subst; unfold is in *; congruence.
Qed.
Lemma rv_length m l L : revalued m l L -> length L = length l.
Proof. induction 1; cbn [length] in *; lia. Qed.
Lemma next_not_bytes m t : m <> Bytes -> tk_kind t <> OpenBracket -> next m t <> Bytes.
Proof.
  intros M K. unfold next. destruct (tk_kind t) as [| | | | | | | | | | | |s| | | |[]| | |]; try congruence; destruct m; try congruence; destruct (str_eq_dec s _); congruence.
Qed.
Lemma s_tok_same t t' : s_kind (tk_kind t') = s_kind (tk_kind t) -> tk_span t' = tk_span t -> tk_source t' = tk_source t -> s_tok t' = s_tok t.
Proof. unfold s_tok. intros -> -> ->. reflexivity. Qed.
(** a number in a cell or a reservation *)
Lemma rv_literal m t s n l L : revalued m (t :: l) L -> is (UnparsedNumber s) t -> literal s n -> m = Cells /\ n < 2 ^ 32 \/ m = Reserve /\ n < 2 ^ 64 ->
  exists t' s' n' L', L = t' :: L' /\ is (UnparsedNumber s') t' /\ literal s' n' /\ (m = Cells -> n' < 2 ^ 32) /\ (m = Reserve -> n' < 2 ^ 64)
    /\ s_tok t' = s_tok t /\ revalued m l L'.
Proof.
  intros H I Li M.
  assert (N : next m t = m) by (unfold next; unfold is in I; rewrite I; destruct M as [[-> _]|[-> _]]; reflexivity).
  inversion H as [|? ? ? L' R|? ? t' ? L' W C D R|]; subst; [rewrite N in R..|destruct M as [[M _]|[M _]]; discriminate M].
  - exists t, s, n, L'. repeat split; try assumption; intros E; destruct M as [[E2 ?]|[E2 ?]]; try assumption; congruence.
  - destruct M as [[-> Lt]|[-> Lt]]; inversion W as [? ? ? s1 s' M0 A B|? ? s1 s' n' A B Li' Lt'|? ? s1 s' n' A B Li' Lt'|? ? s1 s' A B|? ? s1 s' b A B By];
      subst; unfold is in *; try congruence;
      exists t', s', n', L'; repeat split; try assumption; try discriminate; try (intros; assumption);
      apply s_tok_same; try assumption; unfold is in *; rewrite A, B; reflexivity.
Qed.

Ltac other := unfold is in *; intros; congruence.
Ltac fixt := unfold is in *; match goal with E : tk_kind ?t = _ |- fixed (tk_kind ?t) => rewrite E; exact I end.
Ltac keep H L := let H' := fresh H in
  destruct (rv_keep _ _ _ _ H ltac:(fixt)) as (L & -> & H'); clear H; rename H' into H.
Ltac keept H L := let H' := fresh H in
  destruct (rv_keep_name _ _ _ _ _ H ltac:(eassumption) ltac:(discriminate) ltac:(left; discriminate)) as (L & -> & H'); clear H; rename H' into H.
Ltac keepn H L := let H' := fresh H in
  destruct (rv_keep_name _ _ _ _ _ H ltac:(eassumption) ltac:(first [assumption|discriminate]) ltac:(right; eexists _, _; split; [reflexivity|split; other])) as (L & -> & H'); clear H; rename H' into H.

(** ** The grammar *)
Lemma rv_opt_label l l1 : opt_label l l1 -> forall m L, revalued m l L ->
  exists m1 L1, opt_label L L1 /\ revalued m1 l1 L1 /\ (m = Cells -> m1 = Cells) /\ (m = Bytes -> m1 = Bytes).
Proof.
  destruct 1 as [l|t s l A]; intros m L R.
  - exists m, L. split; [constructor|auto].
  - keep R L1. exists (next m t), L1. split; [econstructor; exact A|]. split; [exact R|]. unfold next. unfold is in A. rewrite A.
    split; intros ->; reflexivity.
Qed.
Lemma opt_label_length l l1 : opt_label l l1 -> length l = length l1 -> l = l1.
Proof. destruct 1; intros E; [reflexivity|]. cbn [length] in E. lia. Qed.
Lemma rv_parens l l1 : parens l l1 -> forall m L, revalued m l L -> exists m1 L1, parens L L1 /\ revalued m1 l1 L1.
Proof.
  induction 1 as [l|t l l' A B _ IH|t l u l' l'' A B _ IH _ IH2]; intros m L R.
  - exists m, L. split; [constructor|exact R].
  - destruct (rv_cons _ _ _ _ R) as (t' & L' & -> & E & R'). destruct (IH _ _ R') as (m1 & L1 & P & R1).
    exists m1, L1. split; [|exact R1]. constructor; [| |exact P]; intros K.
    + apply A. exact (E OpenParen I K).
    + apply B. exact (E CloseParen I K).
  - keep R L'. destruct (IH _ _ R) as (m1 & L1 & P & R1). keep R1 L2. destruct (IH2 _ _ R1) as (m2 & L3 & P2 & R2).
    exists m2, L3. split; [|exact R2]. econstructor; eassumption.
Qed.
Lemma rv_cell l c l1 : g_cell l c l1 -> forall L, revalued Cells l L ->
  exists c' L1, g_cell L c' L1 /\ s_cell c' = s_cell c /\ revalued Cells l1 L1.
Proof.
  destruct 1 as [t s n l A B C|t r x l A B|t l u l' A B C]; intros L R.
  - destruct (rv_literal _ _ _ _ _ _ R A B (or_introl (conj eq_refl C))) as (t' & s' & n' & L' & -> & A' & B' & C' & _ & E & R').
    exists (CNumber (mkWT n' t')), L'. split; [econstructor; [exact A'|exact B'|exact (C' eq_refl)]|]. split; [|exact R'].
    cbn [s_cell wt_tok]. rewrite E. reflexivity.
  - keep R L1. exists (CReference (mkWT x t)), L1. split; [econstructor; eassumption|]. split; [reflexivity|].
    unfold next in R. unfold is in A. rewrite A in R. exact R.
  - keep R L1. destruct (rv_parens _ _ C _ _ R) as (m1 & L2 & P & R1). keep R1 L3.
    exists CExpression, L3. split; [econstructor; eassumption|]. split; [reflexivity|].
    unfold next in R1. unfold is in B. rewrite B in R1. exact R1.
Qed.
Lemma rv_cells l cs t l1 : g_cells l cs t l1 -> forall L, revalued Cells l L ->
  exists m1 cs' L1, g_cells L cs' t L1 /\ map s_cell cs' = map s_cell cs /\ revalued m1 l1 L1.
Proof.
  induction 1 as [l t l' A B|l l1 c l2 cs t l' A B _ IH]; intros L R.
  - destruct (rv_opt_label _ _ A _ _ R) as (m1 & L1 & A' & R1 & _). keep R1 L2.
    exists (next m1 t), [], L2. split; [econstructor; eassumption|]. split; [reflexivity|exact R1].
  - destruct (rv_opt_label _ _ A _ _ R) as (m1 & L1 & A' & R1 & M & _). rewrite (M eq_refl) in R1.
    destruct (rv_cell _ _ _ B _ R1) as (c' & L2 & B' & E & R2). destruct (IH _ R2) as (m3 & cs' & L3 & C' & E2 & R3).
    exists m3, (c' :: cs'), L3. split; [econstructor; eassumption|]. split; [cbn [map]; congruence|exact R3].
Qed.
Lemma rv_bytes l bs t l1 : g_bytes l bs t l1 -> forall L, revalued Bytes l L ->
  exists m1 bs' L1, g_bytes L bs' t L1 /\ map s_bytes bs' = map s_bytes bs /\ revalued m1 l1 L1.
Proof.
  induction 1 as [l t l' A B|l e s b l2 bs t l' A B C _ IH]; intros L R.
  - destruct (rv_opt_label _ _ A _ _ R) as (m1 & L1 & A' & R1 & _). keep R1 L2.
    exists (next m1 t), [], L2. split; [econstructor; eassumption|]. split; [reflexivity|exact R1].
  - destruct (rv_opt_label _ _ A _ _ R) as (m1 & L1 & A' & R1 & _ & M). rewrite (M eq_refl) in R1.
    assert (N : next Bytes e = Bytes) by (unfold next; destruct B as [B|B]; unfold is in B; rewrite B; reflexivity).
    inversion R1 as [|? ? ? L' R'|? ? e' ? L' W X Y R'|]; subst; rewrite N in R'; destruct (IH _ R') as (m3 & bs' & L3 & D & E & R3).
    + exists m3, (mkWT b e :: bs'), L3. split; [econstructor; eassumption|]. split; [cbn [map]; congruence|exact R3].
    + inversion W as [? ? ? s1 s' M0 A1 B1| | | |? ? s1 s' b' A1 B1 By]; subst.
      * destruct B as [B|B]; unfold is in *; congruence.
      * exists m3, (mkWT b' e' :: bs'), L3. split; [econstructor; eassumption|]. split; [|exact R3].
        cbn [map]. rewrite E. f_equal. unfold s_bytes, wt_span, wt_source. cbn [wt_tok]. rewrite X, Y. reflexivity.
Qed.
Lemma rv_bits l l1 : g_bits l l1 -> forall m L, revalued m l L -> exists m1 L1, g_bits L L1 /\ revalued m1 l1 L1.
Proof.
  destruct 1 as [l|d t s l A B]; intros m L R.
  - exists m, L. split; [constructor|exact R].
  - keep R L1. assert (E : next m d = Width) by (unfold next; unfold is in A; rewrite A; reflexivity). rewrite E in R.
    inversion R as [|? ? ? L' R'|? ? t' ? L' W X Y R'|]; subst; exists (next Width t), L'; (split; [|exact R']).
    + econstructor; eassumption.
    + inversion W; subst; [unfold is in *; congruence|]. econstructor; eassumption.
Qed.
Lemma rv_value l v l1 : g_value l v l1 -> forall m L, revalued m l L ->
  exists m1 v' L1, g_value L v' L1 /\ s_value v' = s_value v /\ revalued m1 l1 L1.
Proof.
  destruct 1 as [l t s l' A B|l t r x l' A B C|l t l1 cs e l' A B C|l t l1 bs e l' A B C]; intros m L R;
    destruct (rv_bits _ _ A _ _ R) as (m1 & L1 & A' & R1); clear R.
  - inversion R1 as [|? ? ? L' R'|? ? t' ? L' W X Y R'|? t' s1 s' q l0 L' Nm A1 B1]; subst; [..|unfold is in *; congruence].
    + exists (next m1 t), (PVString (mkWT s t)), L'. split; [econstructor; eassumption|]. split; [reflexivity|exact R'].
    + inversion W as [? ? ? s1 s' M0 A1 B1|? ? s1 s' n' A1 B1 Li' Lt'|? ? s1 s' n' A1 B1 Li' Lt'|? ? s1 s' A1 B1|? ? s1 s' b [A1|A1] B1 By]; subst;
        try (unfold is in *; congruence).
      exists (next m1 t), (PVString (mkWT s' t')), L'. split; [econstructor; eassumption|]. split; [|exact R'].
      cbn [s_value wt_tok]. rewrite (s_tok_same t t'); [reflexivity| |assumption..]. unfold is in *. rewrite A1, B1. reflexivity.
  - keep R1 L2. exists (next m1 t), (PVReference (mkWT x t)), L2. split; [econstructor; eassumption|]. split; [reflexivity|exact R1].
  - keep R1 L2. assert (E : next m1 t = Cells) by (unfold next; unfold is in B; rewrite B; reflexivity). rewrite E in R1.
    destruct (rv_cells _ _ _ _ C _ R1) as (m2 & cs' & L3 & C' & E' & R2).
    exists m2, (PVCells t cs' e), L3. split; [econstructor; eassumption|]. split; [cbn [s_value]; congruence|exact R2].
  - keep R1 L2. assert (E : next m1 t = Bytes) by (unfold next; unfold is in B; rewrite B; reflexivity). rewrite E in R1.
    destruct (rv_bytes _ _ _ _ C _ R1) as (m2 & bs' & L3 & C' & E' & R2).
    exists m2, (PVBytes t bs' e), L3. split; [eapply gv_bytes; eassumption|]. split; [cbn [s_value]; congruence|exact R2].
Qed.
Lemma rv_values l vs l1 : g_values l vs l1 -> forall m L, revalued m l L ->
  exists m1 vs' L1, g_values L vs' L1 /\ map s_value vs' = map s_value vs /\ revalued m1 l1 L1.
Proof.
  induction 1 as [l l1 v l2 l' A B C D|l l1 v l2 c l3 vs l' A B C D _ IH]; intros m L R;
    destruct (rv_opt_label _ _ A _ _ R) as (m1 & L1 & A' & R1 & _); clear R;
    destruct (rv_value _ _ _ B _ _ R1) as (m2 & v' & L2 & B' & E & R2); clear R1;
    destruct (rv_opt_label _ _ C _ _ R2) as (m3 & L3 & C' & R3 & _).
  - exists m3, [v'], L3. split; [|split; [cbn [map]; congruence|exact R3]]. econstructor; try eassumption.
    destruct D as (t & r & -> & D1 & D2). destruct (rv_cons _ _ _ _ R3) as (t' & L4 & -> & Et & R4).
    exists t', L4. split; [reflexivity|]. split.
    + intros K. apply D1. exact (Et Comma I K).
    + intros X s K. apply (D2 (opt_label_length _ _ C ltac:(rewrite <- (rv_length _ _ _ R2), <- (rv_length _ _ _ R3), X; reflexivity)) s).
      exact (Et (Label s) I K).
  - keep R3 L4. destruct (IH _ _ R3) as (m4 & vs' & L5 & F & E2 & R4).
    exists m4, (v' :: vs'), L5. split; [econstructor; eassumption|]. split; [cbn [map]; congruence|exact R4].
Qed.
Lemma rv_end l e l1 n : g_end l e l1 n -> n = 0%nat -> forall m L, revalued m l L ->
  exists L1, g_end L e L1 0 /\ revalued Plain l1 L1.
Proof.
  destruct 1 as [t l H|l H]; intros E m L R; [|discriminate]. keep R L1. exists L1. split; [constructor; exact H|].
  unfold next in R. unfold is in H. rewrite H in R. exact R.
Qed.
Lemma rv_glabel l lb l1 : g_label l lb l1 -> forall m L, revalued m l L -> m <> Bytes ->
  exists m1 L1, g_label L lb L1 /\ revalued m1 l1 L1 /\ m1 <> Bytes.
Proof.
  destruct 1 as [l|t s l A B]; intros m L R M.
  - exists m, L. split; [constructor|auto].
  - keep R L1. exists (next m t), L1. split; [constructor; assumption|]. split; [exact R|]. apply next_not_bytes; [exact M|other].
Qed.
Lemma rv_omit l o l1 : g_omit l o l1 -> forall m L, revalued m l L -> m <> Bytes ->
  exists m1 L1, g_omit L o L1 /\ revalued m1 l1 L1 /\ m1 <> Bytes.
Proof.
  destruct 1 as [l|t l A]; intros m L R M.
  - exists m, L. split; [constructor|auto].
  - keep R L1. exists (next m t), L1. split; [constructor; assumption|]. split; [exact R|]. apply next_not_bytes; [exact M|other].
Qed.

Lemma rv_body_items :
  (forall l p l1 n, g_body l p l1 n -> n = 0%nat -> forall m L, revalued m l L -> m <> Bytes ->
     exists p' L1, g_body L p' L1 0 /\ s_payload p' = s_payload p /\ revalued Plain l1 L1)
  /\ (forall seen l its l1 n, g_items seen l its l1 n -> n = 0%nat -> forall m L, revalued m l L -> m <> Bytes ->
     exists m1 its' L1, g_items seen L its' L1 0 /\ map s_item its' = map s_item its /\ revalued m1 l1 L1 /\ m1 <> Bytes).
Proof.
  assert (PB : Plain <> Bytes) by discriminate.
  apply g_body_items_ind.
  - intros l its n l1 o l2 lb c l3 e l4 m A IA B C D E Z. assert (n = 0 /\ m = 0)%nat as [-> ->] by lia. intros md L R M.
    destruct (IA eq_refl _ _ R M) as (m1 & its' & L1 & A' & Ei & R1 & M1). destruct (rv_omit _ _ _ B _ _ R1 M1) as (m2 & L2 & B' & R2 & M2).
    destruct (rv_glabel _ _ _ C _ _ R2 M2) as (m3 & L3 & C' & R3 & M3). keep R3 L4. destruct (rv_end _ _ _ _ E eq_refl _ _ R3) as (L5 & E' & R4).
    exists (mkPayload its' (last_token e c)), L5. split; [exact (gbo _ _ _ _ _ _ _ _ _ _ _ _ A' B' C' D E')|]. split; [|exact R4].
    rewrite !s_payload_items, Ei. reflexivity.
  - intros seen l _ m L R M. exists m, [], L. split; [constructor|]. split; [reflexivity|auto].
  - intros seen d t s nm l e l1 m its l2 n A B C D E G IG Z. assert (n = 0 /\ m = 0)%nat as [-> ->] by lia. intros md L R M.
    assert (Md : next md d = Target) by (unfold next; unfold is in A; rewrite A; reflexivity).
    keep R L1. rewrite Md in R. keept R L2. destruct (rv_end _ _ _ _ E eq_refl _ _ R) as (L3 & E' & R1). destruct (IG eq_refl _ _ R1 PB) as (m2 & its' & L4 & G' & Ei & R2 & M2).
    exists m2, (IDeletedNode d (mkWT nm t) :: its'), L4. split; [exact (gi_delete_node _ _ _ _ _ _ _ _ _ _ _ _ A B C D E' G')|].
    split; [cbn [map]; congruence|auto].
  - intros seen d t s l e l1 m its l2 n A B C E G IG Z. assert (n = 0 /\ m = 0)%nat as [-> ->] by lia. intros md L R M.
    assert (Md : next md d = Target) by (unfold next; unfold is in A; rewrite A; reflexivity).
    keep R L1. rewrite Md in R. keept R L2. destruct (rv_end _ _ _ _ E eq_refl _ _ R) as (L3 & E' & R1). destruct (IG eq_refl _ _ R1 PB) as (m2 & its' & L4 & G' & Ei & R2 & M2).
    exists m2, (IDeletedProperty d (mkWT s t) :: its'), L4. split; [exact (gi_delete_property _ _ _ _ _ _ _ _ _ _ _ A B C E' G')|].
    split; [cbn [map]; congruence|auto].
  - intros l lb t s q l1 vs l2 e l3 m its l4 n A B C D V E G IG Z. assert (n = 0 /\ m = 0)%nat as [-> ->] by lia. intros md L R M.
    destruct (rv_glabel _ _ _ A _ _ R M) as (m1 & L1 & A' & R1 & M1).
    destruct (rv_property_name _ _ _ _ _ R1 B C M1) as (t' & s' & L2 & -> & B' & C' & En & R1'). clear R1. rename R1' into R1. keep R1 L3.
    destruct (rv_values _ _ _ V _ _ R1) as (m2 & vs' & L4 & V' & Ev & R2). destruct (rv_end _ _ _ _ E eq_refl _ _ R2) as (L5 & E' & R3).
    destruct (IG eq_refl _ _ R3 PB) as (m4 & its' & L6 & G' & Ei & R4 & M4).
    exists m4, (IProperty (mkProp lb (mkWT s' t') vs' (last_token e q)) :: its'), L6.
    split; [exact (gi_property _ _ _ _ _ _ _ _ _ _ _ _ _ _ A' B' C' D V' E' G')|]. split; [|auto].
    cbn [map s_item]. unfold s_property. cbn [pr_label pr_name pr_values pr_end]. congruence.
  - intros l lb t s e l1 its l2 n A B C D G IG -> md L R M.
    destruct (rv_glabel _ _ _ A _ _ R M) as (m1 & L1 & A' & R1 & M1).
    destruct (rv_property_name _ _ _ _ _ R1 B C M1) as (t' & s' & L2 & -> & B' & C' & En & R1'). clear R1. rename R1' into R1.
    destruct (rv_end _ _ _ _ (ge_semicolon e l1 D) eq_refl _ _ R1) as (L3 & E' & R3). inversion E'; subst.
    destruct (IG eq_refl _ _ R3 PB) as (m4 & its' & L6 & G' & Ei & R4 & M4).
    exists m4, (IProperty (mkProp lb (mkWT s' t') [] e) :: its'), L6.
    split; [exact (gi_empty_property _ _ _ _ _ _ _ _ _ A' B' C' D G')|]. split; [|auto].
    cbn [map s_item]. unfold s_property. cbn [pr_label pr_name pr_values pr_end]. congruence.
  - intros seen l o l1 lb t s nm b l2 pl l3 m its l4 n A B C D E G H IH I II Z. assert (n = 0 /\ m = 0)%nat as [-> ->] by lia. intros md L R M.
    destruct (rv_omit _ _ _ A _ _ R M) as (m0 & L0 & A' & R0 & M0). destruct (rv_glabel _ _ _ B _ _ R0 M0) as (m1 & L1 & B' & R1 & M1). keepn R1 L2.
    destruct (rv_keep _ _ _ _ R1 ltac:(unfold is in G; rewrite G; exact Logic.I)) as (L3 & -> & R1').
    destruct (IH eq_refl _ _ R1' ltac:(unfold next; unfold is in G; rewrite G; discriminate)) as (pl' & L4 & H' & Ep & R2).
    destruct (II eq_refl _ _ R2 PB) as (m3 & its' & L5 & I' & Ei & R3 & M3).
    exists m3, (INode (mkNode lb (mkWT nm t) pl' o) :: its'), L5.
    split; [exact (gi_node _ _ _ _ _ _ _ _ _ _ _ _ _ _ _ _ A' B' C D E G H' I')|]. split; [|auto].
    cbn [map s_item s_node]. congruence.
Qed.
Lemma rv_primary incl l p l1 n : g_primary incl l p l1 n -> n = 0%nat -> forall L, revalued Plain l L ->
  exists p' L1, g_primary incl L p' L1 0 /\ s_primary p' = s_primary p /\ revalued Plain l1 L1.
Proof.
  assert (PB : Plain <> Bytes) by discriminate.
  destruct 1 as [t l e l' n A B|t l e l' n A B|t a sa na b sb nb l e l' n A B C D B2 C2 D2 E|t f s l A B|t f s l A B C
    |t b l pl l' n A B C|t r x b l pl l' n A B C D|d t r x l e l' n A B C D|d t r x l e l' n A B C D]; intros Z L R; try subst n.
  - keep R L1. destruct (rv_end _ _ _ _ B eq_refl _ _ R) as (L2 & E' & R1).
    eexists _, L2. split; [eapply gp_header; eassumption|]. split; [reflexivity|assumption].
  - keep R L1. destruct (rv_end _ _ _ _ B eq_refl _ _ R) as (L2 & E' & R1).
    eexists _, L2. split; [eapply gp_plugin; eassumption|]. split; [reflexivity|assumption].
  - keep R L1. assert (E0 : next Plain t = Reserve) by (unfold next; unfold is in A; rewrite A; reflexivity). rewrite E0 in R.
    destruct (rv_literal _ _ _ _ _ _ R B C (or_intror (conj eq_refl D))) as (a' & s1 & n1 & L2 & -> & B' & C' & _ & D' & Ea & R2).
    destruct (rv_literal _ _ _ _ _ _ R2 B2 C2 (or_intror (conj eq_refl D2))) as (b' & s2 & n2 & L3 & -> & B2' & C2' & _ & D2' & Eb & R3).
    destruct (rv_end _ _ _ _ E eq_refl _ _ R3) as (L4 & E' & R4).
    eexists _, L4. split; [eapply (gp_memreserve incl t a' s1 n1 b' s2 n2); try eassumption; auto|]. split; [|assumption].
    cbn [s_primary wt_tok]. rewrite Ea, Eb. reflexivity.
  - keepn R L1. assert (E0 : next Plain t = FileName) by (unfold next; unfold is in A; rewrite A; reflexivity). rewrite E0 in R.
    destruct (rv_keep_file _ _ _ _ R B) as (L2 & -> & R2).
    assert (E1 : next FileName f = Plain) by (unfold next; unfold is in B; rewrite B; reflexivity). rewrite E1 in R2.
    eexists _, L2. split; [eapply gp_c_include; eassumption|]. split; [reflexivity|exact R2].
  - keep R L1. assert (E0 : next Plain t = FileName) by (unfold next; unfold is in A; rewrite A; reflexivity). rewrite E0 in R.
    destruct (rv_keep_file _ _ _ _ R B) as (L2 & -> & R2).
    assert (E1 : next FileName f = Plain) by (unfold next; unfold is in B; rewrite B; reflexivity). rewrite E1 in R2.
    eexists _, L2. split; [eapply gp_include; try eassumption|split; [reflexivity|exact R2]].
    intros u r -> K. destruct l as [|u0 l]; [inversion R2|]. destruct (rv_cons _ _ _ _ R2) as (t' & L' & Eq & Et & _). injection Eq as -> ->.
    apply (C u0 l eq_refl). exact (Et Semicolon I K).
  - keep R L1. keep R L2. destruct (proj1 rv_body_items _ _ _ _ C eq_refl _ _ R ltac:(unfold next; unfold is in B; rewrite B; discriminate)) as (p' & L3 & C' & E & R1).
    eexists _, L3. split; [eapply gp_root; eassumption|]. split; [|assumption]. cbn [s_primary s_node]. congruence.
  - keep R L1. keep R L2. destruct (proj1 rv_body_items _ _ _ _ D eq_refl _ _ R ltac:(unfold next; unfold is in C; rewrite C; discriminate)) as (p' & L3 & C' & E & R1).
    eexists _, L3. split; [eapply gp_ref_node; eassumption|]. split; [|assumption]. cbn [s_primary rn_reference rn_payload]. congruence.
  - keep R L1. keep R L2. destruct (rv_end _ _ _ _ D eq_refl _ _ R) as (L3 & E' & R1).
    eexists _, L3. split; [eapply gp_delete_node; eassumption|]. split; [reflexivity|assumption].
  - keep R L1. keep R L2. destruct (rv_end _ _ _ _ D eq_refl _ _ R) as (L3 & E' & R1).
    eexists _, L3. split; [eapply gp_omit; eassumption|]. split; [reflexivity|assumption].
Qed.
Lemma rv_derives incl l ps n : g_file incl l ps n -> n = 0%nat -> forall L, revalued Plain l L ->
  exists ps', g_file incl L ps' 0 /\ map s_primary ps' = map s_primary ps.
Proof.
  induction 1 as [|l p l' m ps n H G IH]; intros Z L R.
  - inversion R; subst. exists []. split; [constructor|reflexivity].
  - assert (Zm : m = 0%nat) by lia. assert (Zn : n = 0%nat) by lia.
    destruct (rv_primary _ _ _ _ _ H Zm _ R) as (p' & L1 & H' & E & R1). destruct (IH Zn _ R1) as (ps' & G' & E2).
    exists (p' :: ps'). split; [exact (gf_cons _ _ _ _ 0 _ 0 H' G')|]. cbn [map]. congruence.
Qed.
Lemma rv_parse incl src t t' toks toks' f s : valid_utf8 t = true -> valid_utf8 t' = true ->
  tokenize t src = Done toks -> tokenize t' src = Done toks' -> revalued Plain toks toks' ->
  parse_text incl t src = ROk f s -> ps_diags s = [] ->
  exists f' s', parse_text incl t' src = ROk f' s' /\ ps_diags s' = [] /\ s_file f' = s_file f.
Proof.
  intros V V' T T' R P D.
  destruct (C10_clean_parse_derives incl t src f V (ex_intro _ s (conj P D))) as (Es & toks2 & L & G).
  pose proof (proj2 (tokenize_iff t src toks2 V) L) as T2. rewrite T in T2. injection T2 as <-.
  destruct (rv_derives _ _ _ _ G eq_refl _ R) as (ps' & G' & E).
  destruct (C11_grammatical_parses_clean incl t' src toks' _ V' (proj1 (tokenize_iff t' src _ V') T') G') as [(s' & H & H2) _].
  exists (mkFile ps' src), s'. split; [exact H|]. split; [exact H2|]. unfold s_file. cbn [fl_elements fl_source]. rewrite E, Es. reflexivity.
Qed.
End Names.
