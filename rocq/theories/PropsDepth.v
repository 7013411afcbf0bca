(** How deep the calls of the parser nest: C101 *)
From Verif Require Import Parser LexSpec Utf8 LexerProofs LexerProofs3 ParserSafe2 Grammar NameProofs Display DisplayProofs
  TreeProofs GrammarComplete PropsParser PropsGrammar PropsDisplay.
From Coq Require Import ZifyBool.

(** ** The parser with a stack of limited depth
    parser.rs:474-604: [node_payload] calls itself for each node inside the node that is being read (parser.rs:530). Here
    [k] calls of [node_payload] may be open at the same time; one more ends the program, as an exhausted stack does.
    The definitions are those of Parser.v apart from that. *)
Fixpoint payload_loop_k (fuel k : nat) (items : list item) (node_discovered : bool) : M payload :=
  match fuel with
  | O => no_fuel
  | S f =>
    let! tok := expect_next in
    if kind_eqb (tk_kind tok) (Directive DeleteNode) then
      let! n := p_node_name in
      expect_semicolon ;;
      payload_loop_k f k (items ++ [IDeletedNode tok n]) node_discovered
    else if kind_eqb (tk_kind tok) (Directive DeleteProperty) then
      let! n := p_property_name in
      expect_semicolon ;;
      payload_loop_k f k (items ++ [IDeletedProperty tok n]) node_discovered
    else
      let! (tok, omit) :=
        (if kind_eqb (tk_kind tok) (Directive OmitIfNoRef) then
           let! t := expect_next in ret (t, Some tok)
         else ret (tok, None)) in
      let! (tok, label) :=
        (match tk_kind tok with
         | Label s =>
           check_is_label (tk_span tok) s ;;
           let! t := expect_next in ret (t, Some (mkWT s tok))
         | _ => ret (tok, None)
         end) in
      match tk_kind tok with
      | Ident s =>
        let! t2 := peek_expect in
        match tk_kind t2 with
        | OpenBrace =>
          let name := mkWT (node_name_of s) tok in
          check_is_node_name (tk_span tok) (node_name_of s) ;;
          let! pl :=
            (match k with
             | O => panic
             | S k' => expect OpenBrace ;; payload_loop_k f k' [] false
             end) in
          payload_loop_k f k (items ++ [INode (mkNode label name pl omit)]) true
        | Equal =>
          skip_tok ;;
          check_is_property_name (tk_span tok) s ;;
          let! values := property_values f [] in
          let! e := expect_semicolon in
          check_omit omit ;;
          let p := mkProp label (mkWT s tok) values (or_token e t2) in
          check_order node_discovered p ;;
          payload_loop_k f k (items ++ [IProperty p]) node_discovered
        | Semicolon =>
          skip_tok ;;
          check_is_property_name (tk_span tok) s ;;
          let p := mkProp label (mkWT s tok) [] t2 in
          check_order node_discovered p ;;
          check_omit omit ;;
          payload_loop_k f k (items ++ [IProperty p]) node_discovered
        | _ =>
          let! p := last_pos in
          let! src := source in
          throw (diag_expected (as_span p) src
                   [Semicolon; Equal; OpenBrace; Directive OmitIfNoRef])
        end
      | CloseBrace =>
        let! e := expect_semicolon in ret (mkPayload items (or_token e tok))
      | _ => throw (diag_expected (tk_span tok) (tk_source tok) [k_ident; CloseBrace])
      end
  end.
Definition node_payload_k (fuel k : nat) : M payload :=
  match k with
  | O => panic
  | S k' => expect OpenBrace ;; payload_loop_k fuel k' [] false
  end.
(** parser.rs:680-785 [primary] *)
Definition p_primary_k (fuel k : nat) : M primary :=
  let! tok := expect_next in
  match tk_kind tok with
  | Directive DTSVersionHeader =>
    expect_semicolon ;; ret (PDirective (ADtsHeader tok))
  | Directive Plugin =>
    expect_semicolon ;; ret (PDirective (APlugin tok))
  | Directive MemReserve =>
    let! address := memreserve_number in
    let! length := memreserve_number in
    expect_semicolon ;;
    ret (PDirective (AMemreserve address length))
  | Ident s =>
    if str_eqb s (bs "#include") then
      let! t := expect_next in
      match tk_kind t with
      | TString f => ret (PCStyleInclude f)
      | _ => throw (diag_expected (tk_span t) (tk_source t) [k_string])
      end
    else throw (diag_expected (tk_span tok) (tk_source tok)
                  [Directive DTSVersionHeader; Directive MemReserve; Directive Include;
                   Directive DeleteNode; Directive OmitIfNoRef; Slash; k_ref])
  | Directive Include =>
    let! t := expect_next in
    match tk_kind t with
    | TString f =>
      let! t2 := peek in
      (match t2 with
       | Some tok2 =>
         if kind_eqb (tk_kind tok2) Semicolon then
           let! tok3 := expect_next in
           push (diag_from_token tok3 ParserError
                   (bs "Include directive must not end with a semicolon"))
         else ret tt
       | None => ret tt
       end) ;;
      let! paths := include_paths in
      ret (PDirective (AInclude (mkInclude tok (mkWT f t) paths)))
    | _ => throw (diag_expected (tk_span t) (tk_source t) [k_string])
    end
  | Slash =>
    let! pl := node_payload_k fuel k in
    ret (PRoot (mkNode None (mkWT (mkNN (bs "/") None) tok) pl None))
  | Ref r =>
    let! w := p_reference tok r in
    let! pl := node_payload_k fuel k in
    ret (PReferencedNode (mkRefNode w pl))
  | Directive DeleteNode =>
    let! w := parse_reference in
    expect_semicolon ;;
    ret (PDirective (ADeletedNode tok w))
  | Directive OmitIfNoRef =>
    let! w := parse_reference in
    expect_semicolon ;;
    ret (PDirective (AOmitIfNoRef tok w))
  | _ => throw (diag_expected (tk_span tok) (tk_source tok)
                  [Directive DTSVersionHeader; Directive MemReserve; Directive Include;
                   Directive DeleteNode; Directive OmitIfNoRef; Slash; k_ref])
  end.
Fixpoint file_loop_k (fuel k : nat) (acc : list primary) : M (list primary) :=
  match fuel with
  | O => no_fuel
  | S f =>
    let! t := peek in
    match t with
    | None => ret acc
    | Some _ => let! p := p_primary_k f k in file_loop_k f k (acc ++ [p])
    end
  end.
Definition p_file_k (fuel k : nat) : M dts_file :=
  let! els := file_loop_k fuel k [] in
  let! src := source in
  ret (mkFile els src).
Definition parse_text_k (k : nat) (incl : list fpath) (text : list N) (src : fpath) : res dts_file :=
  p_file_k (S (S (length text))) k (parser_new incl text src).

(** ** How deep the nodes of a tree nest *)
Fixpoint node_depth (n : node) : nat :=
  match n with mkNode _ _ pl _ => payload_depth pl end
with payload_depth (p : payload) : nat :=
  match p with
  | mkPayload its _ =>
    S ((fix go (l : list item) : nat := match l with [] => O | i :: r => Nat.max (item_depth i) (go r) end) its)
  end
with item_depth (i : item) : nat :=
  match i with INode n => node_depth n | _ => O end.
Fixpoint items_depth (l : list item) : nat := match l with [] => O | i :: r => Nat.max (item_depth i) (items_depth r) end.
Definition primary_depth (p : primary) : nat :=
  match p with PRoot n => node_depth n | PReferencedNode r => payload_depth (rn_payload r) | _ => O end.
Fixpoint depth (ps : list primary) : nat := match ps with [] => O | p :: r => Nat.max (primary_depth p) (depth r) end.

Lemma payload_depth_items its e : payload_depth (mkPayload its e) = S (items_depth its).
Proof. reflexivity. Qed.
Lemma items_depth_app a b : items_depth (a ++ b) = Nat.max (items_depth a) (items_depth b).
Proof. induction a as [|i a IH]; cbn [app items_depth]; [reflexivity|]. rewrite IH. lia. Qed.
Lemma depth_app a b : depth (a ++ b) = Nat.max (depth a) (depth b).
Proof. induction a as [|i a IH]; cbn [app depth]; [reflexivity|]. rewrite IH. lia. Qed.

(** ** The limited run is the run, or it ends early *)
Definition lim {A} (P : A -> bool) (m mk : M A) : Prop := forall s,
  match m s with
  | ROk a s' => mk s = if P a then ROk a s' else RPanic
  | _ => mk s = m s \/ mk s = RPanic
  end.
Lemma lim_same {A B} (P : B -> bool) (m : M A) (f fk : A -> M B) : (forall a, lim P (f a) (fk a)) -> lim P (bind m f) (bind m fk).
Proof. intros H s. unfold bind. destruct (m s) as [a s1|d s1| |]; [apply H|auto..]. Qed.
Lemma lim_bind {A B} (Q : A -> bool) (P : B -> bool) (m mk : M A) (f fk : A -> M B) : lim Q m mk ->
  (forall a, Q a = true -> lim P (f a) (fk a)) ->
  (forall a s b s', Q a = false -> f a s = ROk b s' -> P b = false) -> lim P (bind m f) (bind mk fk).
Proof.
  intros H H1 H2 s. unfold bind. specialize (H s). destruct (m s) as [a s1|d s1| |].
  - rewrite H. destruct (Q a) eqn:E; [apply H1; exact E|]. destruct (f a s1) as [b s2|d s2| |] eqn:E2; auto.
    rewrite (H2 _ _ _ _ E E2). reflexivity.
  - destruct H as [-> | ->]; auto.
  - destruct H as [-> | ->]; auto.
  - destruct H as [-> | ->]; auto.
Qed.
Lemma lim_refl {A} (P : A -> bool) (m : M A) : (forall s a s', m s = ROk a s' -> P a = true) -> lim P m m.
Proof. intros H s. destruct (m s) as [a s1|d s1| |] eqn:E; auto. rewrite (H _ _ _ E). reflexivity. Qed.
Lemma lim_throw {A} (P : A -> bool) d : lim P (throw d) (throw d).
Proof. intros s. cbn. auto. Qed.
Lemma lim_ret {A} (P : A -> bool) a : P a = true -> lim P (ret a) (ret a).
Proof. intros H s. cbn. rewrite H. reflexivity. Qed.

(** the items read so far are kept *)
Definition grows (m : M payload) (items : list item) : Prop := forall s p s', m s = ROk p s' ->
  (items_depth items <= items_depth (pl_items p))%nat.
Lemma grows_bind {A} (m : M A) f items : (forall a, grows (f a) items) -> grows (bind m f) items.
Proof. intros H s p s'. unfold bind. destruct (m s) as [a s1|d s1| |]; try discriminate. apply H. Qed.
Lemma grows_throw d items : grows (throw d) items.
Proof. intros s p s' E. discriminate. Qed.
Lemma grows_more m items it : grows m (items ++ [it]) -> grows m items.
Proof. intros H s p s' E. specialize (H _ _ _ E). rewrite items_depth_app in H. lia. Qed.
Lemma payload_grows f : forall items nd, grows (payload_loop f items nd) items.
Proof.
  induction f as [|f IH]; intros items nd; [intros s p s' E; discriminate|]. cbn [payload_loop].
  apply grows_bind. intros tok. destruct (kind_eqb _ _).
  { apply grows_bind. intros n. apply grows_bind. intros _. eapply grows_more, IH. }
  destruct (kind_eqb _ _).
  { apply grows_bind. intros n. apply grows_bind. intros _. eapply grows_more, IH. }
  apply grows_bind. intros [t1 omit]. apply grows_bind. intros [t2 label]. destruct (tk_kind t2); try apply grows_throw.
  - apply grows_bind. intros e s p s' E. injection E as <- <-. cbn. lia.
  - apply grows_bind. intros t3. destruct (tk_kind t3); repeat (apply grows_bind; intros ?);
      first [apply grows_throw|eapply grows_more, IH].
Qed.

Lemma bind_assoc {A B C} (m : M A) (f : A -> M B) (g : B -> M C) s :
  (let! a := m in let! b := f a in g b) s = (let! b := (let! a := m in f a) in g b) s.
Proof. unfold bind. destruct (m s); reflexivity. Qed.
Lemma payload_lim f : forall k items nd, (items_depth items <= k)%nat ->
  lim (fun p => items_depth (pl_items p) <=? k)%nat (payload_loop f items nd) (payload_loop_k f k items nd).
Proof.
  induction f as [|f IH]; intros k items nd Hk; [intros s; cbn; auto|]. cbn [payload_loop payload_loop_k].
  assert (One : forall it nd', item_depth it = 0%nat ->
    lim (fun p => items_depth (pl_items p) <=? k)%nat (payload_loop f (items ++ [it]) nd') (payload_loop_k f k (items ++ [it]) nd')).
  { intros it nd' E. apply IH. rewrite items_depth_app. cbn [items_depth]. rewrite E. lia. }
  apply lim_same. intros tok. destruct (kind_eqb _ _).
  { apply lim_same. intros n. apply lim_same. intros _. apply One. reflexivity. }
  destruct (kind_eqb _ _).
  { apply lim_same. intros n. apply lim_same. intros _. apply One. reflexivity. }
  apply lim_same. intros [t1 omit]. apply lim_same. intros [t2 label]. destruct (tk_kind t2); try apply lim_throw.
  - apply lim_same. intros e. apply lim_ret. cbn [pl_items]. lia.
  - apply lim_same. intros t3. destruct (tk_kind t3);
      try (repeat (apply lim_same; intros ?); first [apply lim_throw|apply One; reflexivity]).
    + apply lim_same. intros _.
      intros st. rewrite bind_assoc. revert st.
      apply lim_bind with (Q := fun p => (payload_depth p <=? k)%nat).
        * destruct k as [|k].
          -- intros s0. destruct ((expect OpenBrace ;; payload_loop f [] false) s0) as [[its e] s1|d s1| |]; cbn; auto.
          -- apply lim_same. intros _. intros s0. specialize (IH k [] false (Nat.le_0_l _) s0).
            destruct (payload_loop f [] false s0) as [[its e] s1|d s1| |]; exact IH.
        * intros [its e] Hd. apply IH. rewrite items_depth_app. cbn [items_depth item_depth node_depth]. lia.
        * intros [its e] s0 b s1 Hd E. apply payload_grows in E. rewrite items_depth_app in E.
          cbn [items_depth item_depth node_depth] in E. lia.
Qed.
Lemma node_payload_lim f k : lim (fun p => payload_depth p <=? k)%nat (node_payload f) (node_payload_k f k).
Proof.
  unfold node_payload, node_payload_k. destruct k as [|k].
  - intros s0. destruct ((expect OpenBrace ;; payload_loop f [] false) s0) as [[its e] s1|d s1| |]; cbn; auto.
  - apply lim_same. intros _. intros s0. pose proof (payload_lim f k [] false (Nat.le_0_l _) s0) as IH.
    destruct (payload_loop f [] false s0) as [[its e] s1|d s1| |]; exact IH.
Qed.
Lemma primary_lim f k : lim (fun p => primary_depth p <=? k)%nat (p_primary f) (p_primary_k f k).
Proof.
  unfold p_primary, p_primary_k. apply lim_same. intros tok.
  assert (B : forall (m : payload -> primary), (forall pl, primary_depth (m pl) = payload_depth pl) ->
    lim (fun p => primary_depth p <=? k)%nat (let! pl := node_payload f in ret (m pl)) (let! pl := node_payload_k f k in ret (m pl))).
  { intros m Hm. apply lim_bind with (Q := fun p => (payload_depth p <=? k)%nat); [apply node_payload_lim| |].
    - intros pl H. apply lim_ret. rewrite Hm. exact H.
    - intros pl s b s' H E. injection E as <- <-. rewrite Hm. exact H. }
  destruct (tk_kind tok);
  repeat match goal with
  | |- lim _ (bind ?m _) (bind ?m _) => apply lim_same; intros ?
  | |- lim _ (throw _) (throw _) => apply lim_throw
  | |- lim _ (ret _) (ret _) => apply lim_ret; reflexivity
  | |- lim _ (if ?b then _ else _) _ => destruct b
  | |- lim _ (match ?x with _ => _ end) _ => destruct x
  | |- lim _ (bind (node_payload _) _) _ => apply B; reflexivity
  end.
Qed.
Lemma file_loop_grows f : forall acc s ps s', file_loop f acc s = ROk ps s' -> (depth acc <= depth ps)%nat.
Proof.
  induction f as [|f IH]; intros acc s ps s' E; [discriminate|]. cbn [file_loop] in E. unfold bind at 1 in E.
  destruct (peek s) as [[t|] s1|d s1| |]; try discriminate.
  - unfold bind in E. destruct (p_primary f s1) as [p s2|d s2| |]; try discriminate. apply IH in E. rewrite depth_app in E. lia.
  - injection E as <- <-. lia.
Qed.
Lemma file_loop_lim f k : forall acc, (depth acc <= k)%nat ->
  lim (fun ps => depth ps <=? k)%nat (file_loop f acc) (file_loop_k f k acc).
Proof.
  induction f as [|f IH]; intros acc Hk; [intros s; cbn; auto|]. cbn [file_loop file_loop_k].
  apply lim_same. intros [t|]; [|apply lim_ret; lia].
  apply lim_bind with (Q := fun p => (primary_depth p <=? k)%nat); [apply primary_lim| |].
  - intros p H. apply IH. rewrite depth_app. cbn [depth]. lia.
  - intros p s b s' H E. apply file_loop_grows in E. rewrite depth_app in E. cbn [depth] in E. lia.
Qed.
Lemma file_lim f k : lim (fun d => depth (fl_elements d) <=? k)%nat (p_file f) (p_file_k f k).
Proof.
  unfold p_file, p_file_k. apply lim_bind with (Q := fun ps => (depth ps <=? k)%nat).
  - apply file_loop_lim. cbn. lia.
  - intros ps H. apply lim_same. intros src. apply lim_ret. exact H.
  - intros ps s b s' H E. unfold bind, source, ret in E. injection E as <- <-. exact H.
Qed.

(** ** With as many calls as the text has bytes nothing ends early *)
Definition same {A} (m m' : M A) : Prop := forall s, m s = m' s.
Lemma same_refl {A} (m : M A) : same m m.
Proof. intros s. reflexivity. Qed.
Lemma same_bind {A B} (m m' : M A) (g g' : A -> M B) : same m m' -> (forall a, same (g a) (g' a)) -> same (bind m g) (bind m' g').
Proof. intros H1 H2 s. unfold bind. rewrite H1. destruct (m' s); auto. apply H2. Qed.
Lemma payload_room f : forall k items nd, (f <= k)%nat -> same (payload_loop_k f k items nd) (payload_loop f items nd).
Proof.
  induction f as [|f IH]; intros k items nd H; [apply same_refl|]. destruct k as [|k]; [lia|]. cbn [payload_loop payload_loop_k].
  assert (IH' : forall items nd, same (payload_loop_k f (S k) items nd) (payload_loop f items nd)) by (intros; apply IH; lia).
  apply same_bind; [apply same_refl|]. intros tok. destruct (kind_eqb _ _).
  { apply same_bind; [apply same_refl|]. intros n. apply same_bind; [apply same_refl|]. intros _. apply IH'. }
  destruct (kind_eqb _ _).
  { apply same_bind; [apply same_refl|]. intros n. apply same_bind; [apply same_refl|]. intros _. apply IH'. }
  apply same_bind; [apply same_refl|]. intros [t1 omit]. apply same_bind; [apply same_refl|]. intros [t2 label].
  destruct (tk_kind t2); try apply same_refl.
  apply same_bind; [apply same_refl|]. intros t3. destruct (tk_kind t3); try apply same_refl;
    try solve [repeat (apply same_bind; [apply same_refl|]; intros ?); apply IH'].
  apply same_bind; [apply same_refl|]. intros _ st. rewrite bind_assoc. revert st. change (forall st, ?a st = ?b st) with (same a b).
  apply same_bind; [|intros pl; apply IH']. apply same_bind; [apply same_refl|]. intros _. apply IH. lia.
Qed.
Lemma primary_room f k : (f < k)%nat -> same (p_primary_k f k) (p_primary f).
Proof.
  intros H. unfold p_primary, p_primary_k. apply same_bind; [apply same_refl|]. intros tok.
  assert (B : same (node_payload_k f k) (node_payload f)).
  { destruct k as [|k]; [lia|]. unfold node_payload, node_payload_k. apply same_bind; [apply same_refl|]. intros _. apply payload_room. lia. }
  destruct (tk_kind tok); try apply same_refl.
  - apply same_bind; [exact B|]. intros pl. apply same_refl.
  - apply same_bind; [apply same_refl|]. intros w. apply same_bind; [exact B|]. intros pl. apply same_refl.
Qed.
Lemma file_room f k : forall acc, (f <= k)%nat -> same (file_loop_k f k acc) (file_loop f acc).
Proof.
  induction f as [|f IH]; intros acc H; [apply same_refl|]. cbn [file_loop file_loop_k]. apply same_bind; [apply same_refl|].
  intros [t|]; [|apply same_refl]. apply same_bind; [apply primary_room; lia|]. intros p. apply IH. lia.
Qed.

(** ** Trees of any depth *)
Fixpoint tower (n : nat) : list item :=
  match n with O => [] | S n => [INode (mkNode None (mkWT (mkNN (bs "a") None) no_token) (mkPayload (tower n) no_token) None)] end.
Definition tower_file (n : nat) : list primary :=
  [PRoot (mkNode None (mkWT (mkNN (bs "/") None) no_token) (mkPayload (tower n) no_token) None)].
Lemma tower_depth n : items_depth (tower n) = n.
Proof. induction n as [|n IH]; [reflexivity|]. cbn [tower items_depth item_depth node_depth]. rewrite payload_depth_items, IH. lia. Qed.
Lemma tower_ok n : forall seen, items_ok seen (tower n).
Proof.
  induction n as [|n IH]; intros seen; cbn [tower]; constructor; [constructor| |apply IH|constructor].
  assert (La : letter 97) by (unfold letter; lia).
  cbn [wt_item]. right. cbn [nn_name nn_addr]. split; [split; [discriminate|cbn; lia]|].
  split; [constructor; [left; exact La|constructor]|]. split; [exists 97, []; split; [reflexivity|exact La]|discriminate].
Qed.
Lemma tower_length n : length (show_items (tower n)) = (11 * n)%nat.
Proof.
  induction n as [|n IH]; [reflexivity|]. cbn [tower show_items show_item show_node wt_item]. rewrite show_payload_items.
  rewrite !app_length, IH. cbn. lia.
Qed.

Definition keeps_depth (i : item) : Prop := item_depth (bare_item i) = item_depth i.
Lemma bare_items_depth its : Forall keeps_depth its ->
  items_depth ((fix go (l : list item) : list item := match l with [] => [] | i :: r => bare_item i :: go r end) its) = items_depth its.
Proof. induction 1 as [|i its Hi _ IH]; [reflexivity|]. cbn [items_depth]. rewrite Hi, IH. reflexivity. Qed.
Lemma bare_item_depth i : keeps_depth i.
Proof.
  apply (item_rect' (fun n => node_depth (bare_node n) = node_depth n) keeps_depth); unfold keeps_depth; try reflexivity.
  - intros l nm its e o H. cbn [bare_node node_depth bare_payload]. rewrite !payload_depth_items. f_equal. apply bare_items_depth. exact H.
  - intros n H. exact H.
Qed.
Lemma bare_payload_depth pl : payload_depth (bare_payload pl) = payload_depth pl.
Proof.
  destruct pl as [its e]. cbn [bare_payload]. rewrite !payload_depth_items. f_equal. apply bare_items_depth.
  induction its as [|i its IH]; constructor; [apply bare_item_depth|exact IH].
Qed.
Lemma bare_primary_depth p : primary_depth (bare_primary p) = primary_depth p.
Proof.
  destruct p as [[]|[l nm pl o]|[r pl]|]; try reflexivity; cbn [bare_primary primary_depth bare_node node_depth rn_payload]; apply bare_payload_depth.
Qed.
Lemma bare_depth ps : depth (map bare_primary ps) = depth ps.
Proof. induction ps as [|p ps IH]; [reflexivity|]. cbn [map depth]. rewrite bare_primary_depth, IH. reflexivity. Qed.

(** ** C101 *)
(** A text that can be read is read with [k] open calls exactly if its nodes nest at most [k] deep. *)
Theorem C101_depth_exact : forall incl text src f s k,
  parse_text incl text src = ROk f s ->
  parse_text_k k incl text src = if (depth (fl_elements f) <=? k)%nat then ROk f s else RPanic.
Proof.
  intros incl text src f s k E. pose proof (file_lim (S (S (length text))) k (parser_new incl text src)) as H.
  unfold parse_text in E. rewrite E in H. exact H.
Qed.
Print Assumptions C101_depth_exact.

(** A limit changes nothing but whether the program ends early; with one call for each byte, and two, it never does. *)
Theorem C101_enough : forall incl text src k,
  (parse_text_k k incl text src = parse_text incl text src \/ parse_text_k k incl text src = RPanic)
  /\ ((length text + 2 <= k)%nat -> parse_text_k k incl text src = parse_text incl text src).
Proof.
  intros incl text src k. split.
  - pose proof (file_lim (S (S (length text))) k (parser_new incl text src)) as H. unfold parse_text, parse_text_k.
    destruct (p_file _ _) as [f s|d s| |]; try exact H. rewrite H. destruct (_ <=? _)%nat; auto.
  - intros H. unfold parse_text, parse_text_k, p_file, p_file_k. apply same_bind; [apply file_room; lia|].
    intros els. apply same_refl.
Qed.
Print Assumptions C101_enough.

(** No number of open calls is enough for all texts: for each [k] there is a text of a few bytes for each level, without
    any mistake in it, that needs more. *)
Theorem C101_refuted : forall incl src k, exists text f,
  valid_utf8 text = true /\ length text = (11 * k + 7)%nat
  /\ parses incl text src f [] /\ parse_text_k k incl text src = RPanic.
Proof.
  intros incl src k. assert (Hok : Forall (primary_ok incl) (tower_file k)).
  { constructor; [|constructor]. cbn [primary_ok nd_label nd_name wt_item nd_omit nd_payload pl_items]. repeat split. apply tower_ok. }
  destruct (file_reads incl _ Hok) as (ks & Hs & R). destruct (spelled_lexed src _ _ _ Hs [] []) as (toks & Hl & Hk); [constructor|].
  destruct (R toks Hk) as (_ & ps & E & Hd).
  pose proof (spelled_valid _ _ _ Hs) as Hv.
  destruct (C11_grammatical_parses_clean incl _ src toks ps Hv Hl Hd) as [Hp _].
  exists (concat (map (fun p => show_primary p ++ nl) (tower_file k))), (mkFile ps src). split; [exact Hv|]. split; [|split; [exact Hp|]].
  - cbn [tower_file map concat show_primary show_node wt_item]. rewrite show_payload_items, !app_length, tower_length. cbn. lia.
  - destruct Hp as (s & Hp & _). rewrite (C101_depth_exact _ _ _ _ _ k Hp). cbn [fl_elements].
    apply (f_equal depth) in E. rewrite !bare_depth in E. rewrite E. cbn [tower_file depth primary_depth node_depth].
    rewrite payload_depth_items, tower_depth. destruct (Nat.leb_spec (Nat.max (S k) 0) k); [lia|reflexivity].
Qed.
Print Assumptions C101_refuted.

Example C101_case :
  let text := bs "/ { a { b { c; }; }; d { }; };" in
  exists f s, parse_text [] text [] = ROk f s /\ depth (fl_elements f) = 3%nat
  /\ parse_text_k 2 [] text [] = RPanic /\ parse_text_k 3 [] text [] = ROk f s.
Proof.
  cbv zeta. eexists. eexists. split; [vm_compute; reflexivity|]. split; [vm_compute; reflexivity|]. split; vm_compute; reflexivity.
Qed.
