(** C22, the other direction: a tree whose display reads back contains none of the excluded constructs *)
From Verif Require Import Parser LexSpec Utf8 Utf8Adequacy Grammar Display NameProofs NumProofs LexerProofs LexerProofs2 LexerProofs3 ParserBase GrammarComplete
  TreeProofs PropsGrammar PropsConcat DisplayProofs PropsDisplay.

(** ** A string that is its own spelling has no quotes, no backslashes and only ASCII characters *)
Lemma encode_high c : 128 <= c -> exists x w, encode_char c = x :: w /\ w <> [] /\ Forall (fun b => 128 <= b) (x :: w).
Proof.
  intros H. unfold encode_char. destruct (N.ltb_spec c 128); [lia|].
  destruct (c <? 2048); [|destruct (c <? 65536)]; eexists _, _; (split; [reflexivity|]); (split; [discriminate|]);
    repeat (apply Forall_cons; [eapply N.le_trans; [|apply N.le_add_r]; lia|]); apply Forall_nil.
Qed.
Lemma encode_low c : c < 128 -> encode_char c = [c].
Proof. intros H. unfold encode_char. destruct (N.ltb_spec c 128); [reflexivity|lia]. Qed.
Lemma high_runs b s : string_body b s -> forall w r r', w <> [] -> Forall (fun x => 128 <= x) w ->
  w ++ s ++ cQuote :: r = b ++ cQuote :: r' -> False.
Proof.
  induction 1 as [|c b s N1 N2 _ IH|c b s _ IH]; intros w r r' Hw Hh E; (destruct w as [|x w]; [congruence|]); cbn [app] in E; inversion Hh as [|? ? Hx Hh']; subst.
  - assert (E1 : x = cQuote) by congruence. lia.
  - assert (E1 : x = c) by congruence. subst x. destruct (encode_high c Hx) as (y & v & Ec & Hv & Hyv).
    apply (IH (w ++ encode_char c) r r'); [rewrite Ec; destruct w; discriminate|apply Forall_app; split; [exact Hh'|rewrite Ec; exact Hyv]|].
    rewrite <- !app_assoc in *. congruence.
  - assert (E1 : x = cBackslash) by congruence. lia.
Qed.
Lemma backslash_runs b s : string_body b s -> forall k r r',
  s ++ cQuote :: r = repeat cBackslash (S k) ++ b ++ cQuote :: r' -> False.
Proof.
  induction 1 as [|c b s N1 N2 _ IH|c b s _ IH]; intros k r r' E; cbn [repeat app] in E.
  - discriminate.
  - destruct (N.lt_ge_cases c 128) as [Hc|Hc].
    + rewrite (encode_low c Hc) in E. cbn [app] in E. congruence.
    + destruct (encode_high c Hc) as (y & v & Ec & _ & Hyv). rewrite Ec in E. cbn [app] in E. apply Forall_inv in Hyv.
      assert (y = cBackslash) by congruence. lia.
  - destruct (N.lt_ge_cases c 128) as [Hc|Hc].
    + rewrite (encode_low c Hc) in E. cbn [app] in E. assert (E1 : c = cBackslash) by congruence. subst c.
      apply (IH (S k) r r'). cbn [repeat app]. assert (E2 : s ++ cQuote :: r = repeat cBackslash k ++ cBackslash :: cBackslash :: b ++ cQuote :: r') by congruence.
      rewrite E2. clear. induction k as [|k IH]; [reflexivity|]. cbn [repeat app]. f_equal. exact IH.
    + destruct (encode_high c Hc) as (y & v & Ec & _ & Hyv). rewrite Ec in E. cbn [app] in E. apply Forall_inv in Hyv.
      assert (y = cBackslash) by congruence. lia.
Qed.
Lemma own_spelling b s : string_body b s -> forall r r', s ++ cQuote :: r = b ++ cQuote :: r' -> Forall plain_char s /\ r = r'.
Proof.
  induction 1 as [|c b s N1 N2 Hb IH|c b s Hb IH]; intros r r' E.
  - cbn [app] in E. split; [constructor|congruence].
  - destruct (N.lt_ge_cases c 128) as [Hc|Hc].
    + rewrite (encode_low c Hc) in *. cbn [app] in *. destruct (IH r r') as [IH1 IH2]; [congruence|]. split; [|exact IH2].
      constructor; [repeat split; assumption|exact IH1].
    + exfalso. destruct (encode_high c Hc) as (y & v & Ec & Hv & Hyv). rewrite Ec in E. cbn [app] in E.
      apply (high_runs b s Hb v r r' Hv); [inversion Hyv; assumption|]. rewrite <- app_assoc in E. congruence.
  - exfalso. destruct (N.lt_ge_cases c 128) as [Hc|Hc].
    + rewrite (encode_low c Hc) in E. cbn [app] in E. assert (E1 : c = cBackslash) by congruence. subst c.
      apply (backslash_runs b s Hb 0 r r'). cbn [repeat app]. congruence.
    + destruct (encode_high c Hc) as (y & v & Ec & _ & Hyv). rewrite Ec in E. cbn [app] in E. apply Forall_inv in Hyv.
      assert (y = cBackslash) by congruence. lia.
Qed.

(** ** The display does not look at the tokens *)
Lemma show_cell_bare c : show_cell (bare_cell c) = show_cell c.
Proof. destruct c; reflexivity. Qed.
Lemma show_value_bare v : show_value (bare_value v) = show_value v.
Proof.
  destruct v; try reflexivity; cbn [bare_value show_value]; rewrite map_map.
  - rewrite (map_ext _ show_cell); [reflexivity|exact show_cell_bare].
  - reflexivity.
Qed.
Lemma show_property_bare p : show_property (bare_property p) = show_property p.
Proof.
  destruct p as [lb nm vs e]. unfold show_property. cbn [bare_property pr_values pr_name]. destruct vs as [|v vs]; [reflexivity|].
  change (map bare_value (v :: vs)) with (bare_value v :: map bare_value vs). cbv beta iota.
  change (bare_value v :: map bare_value vs) with (map bare_value (v :: vs)). rewrite map_map, (map_ext _ show_value); [reflexivity|exact show_value_bare].
Qed.
Lemma show_item_bare i : show_item (bare_item i) = show_item i.
Proof.
  apply (item_rect' (fun n => show_node (bare_node n) = show_node n) (fun i => show_item (bare_item i) = show_item i)); try reflexivity.
  - intros l nm its e o H. cbn [bare_node]. rewrite bare_payload_items. cbn [show_node]. rewrite !show_payload_items. f_equal; [destruct l; reflexivity|].
    f_equal. f_equal. f_equal. f_equal. f_equal. induction H as [|j its Hj _ IH]; [reflexivity|]. cbn [map show_items]. rewrite Hj, IH. reflexivity.
  - intros p. apply show_property_bare.
  - intros n H. exact H.
Qed.
Lemma show_payload_bare pl : show_payload (bare_payload pl) = show_payload pl.
Proof.
  destruct pl as [its e]. rewrite bare_payload_items, !show_payload_items. f_equal. f_equal. f_equal.
  induction its as [|i its IH]; [reflexivity|]. cbn [map show_items]. rewrite show_item_bare, IH. reflexivity.
Qed.
Lemma show_primary_bare p : show_primary (bare_primary p) = show_primary p.
Proof.
  destruct p as [[]|[lb nm pl o]|[r pl]|]; try reflexivity; cbn [bare_primary bare_node show_primary].
  - cbn [show_node]. rewrite show_payload_bare. destruct lb; reflexivity.
  - unfold show_ref_node. cbn [rn_reference rn_payload]. rewrite show_payload_bare. reflexivity.
Qed.
Definition show_all (ps : list primary) : str := concat (map (fun p => show_primary p ++ nl) ps).
Lemma show_all_bare ps : show_all (map bare_primary ps) = show_all ps.
Proof. unfold show_all. rewrite map_map. f_equal. apply map_ext. intros p. rewrite show_primary_bare. reflexivity. Qed.

Lemma plain_value_bare v : plain_value (bare_value v) <-> plain_value v.
Proof. destruct v; cbn [bare_value plain_value bare wt_item]; try tauto. rewrite Forall_map. cbn [bare wt_item]. tauto. Qed.
Lemma plain_item_bare i : plain_item (bare_item i) -> plain_item i.
Proof.
  apply (item_rect' (fun n => plain_item (INode (bare_node n)) -> plain_item (INode n)) (fun i => plain_item (bare_item i) -> plain_item i)).
  - intros l nm its e o H K. cbn [bare_node] in K. rewrite bare_payload_items in K. inversion K as [|? ? ? ? K1]; subst.
    destruct o; [discriminate|]. constructor. rewrite Forall_map in K1. rewrite Forall_forall in *. intros x Hx. apply H; [exact Hx|]. apply K1. exact Hx.
  - intros [lb nm vs e] K. cbn [bare_item] in K. unfold bare_property in K. cbn [pr_label pr_name pr_values] in K. inversion K as [? ? ? K1|]; subst.
    destruct lb; [discriminate|]. constructor. rewrite Forall_map in K1. eapply Forall_impl; [|exact K1]. cbn beta. intros v. apply plain_value_bare.
  - intros n H. exact H.
  - intros t n K. inversion K.
  - intros t n K. inversion K.
Qed.
Lemma plain_primary_bare p : plain_primary (bare_primary p) -> plain_primary p.
Proof.
  assert (L : forall its, Forall plain_item (map bare_item its) -> Forall plain_item its).
  { intros its. rewrite Forall_map. apply Forall_impl. exact plain_item_bare. }
  destruct p as [[]|[lb nm [its e] o]|[r [its e]]|]; cbn [bare_primary plain_primary bare_node nd_payload rn_payload]; auto; rewrite bare_payload_items; apply L.
Qed.
Lemma plain_all_bare ps ps' : map bare_primary ps' = map bare_primary ps -> Forall plain_primary ps' -> Forall plain_primary ps.
Proof.
  intros E H. assert (K : forall p, plain_primary p -> plain_primary (bare_primary p)).
  { clear. intros p. assert (L : forall its, Forall plain_item its -> Forall plain_item (map bare_item its)).
    { intros its. rewrite Forall_map. apply Forall_impl. intros i.
      apply (item_rect' (fun n => plain_item (INode n) -> plain_item (INode (bare_node n))) (fun i => plain_item i -> plain_item (bare_item i))).
      - intros l nm its' e o H K. inversion K as [|? ? ? ? K1]; subst. cbn [bare_node option_map]. rewrite bare_payload_items.
        constructor. rewrite Forall_map. rewrite Forall_forall in *. intros x Hx. apply H; [exact Hx|]. apply K1. exact Hx.
      - intros p' K. inversion K; subst. cbn [bare_item]. unfold bare_property. cbn [pr_label pr_name pr_values option_map]. constructor. rewrite Forall_map.
        eapply Forall_impl; [|eassumption]. cbn beta. intros v. apply plain_value_bare.
      - intros n H. exact H.
      - intros t n K. inversion K.
      - intros t n K. inversion K. }
    destruct p as [[]|[lb nm [its e] o]|[r [its e]]|]; cbn [bare_primary plain_primary bare_node nd_payload rn_payload]; auto; rewrite bare_payload_items; apply L. }
  assert (F : Forall plain_primary (map bare_primary ps)) by (rewrite <- E, Forall_map; eapply Forall_impl; [|exact H]; exact K).
  rewrite Forall_map in F. eapply Forall_impl; [|exact F]. exact plain_primary_bare.
Qed.

(** ** Counting quotes *)
Definition cq (l : list N) : nat := count_occ N.eq_dec l cQuote.
Lemma cq_app a b : cq (a ++ b) = (cq a + cq b)%nat.
Proof. apply count_occ_app. Qed.
Lemma cq_none l : (forall x, In x l -> x <> cQuote) -> cq l = 0%nat.
Proof. intros H. apply count_occ_not_In. intros K. exact (H _ K eq_refl). Qed.
Lemma cq_class (P : N -> Prop) l : ~ P cQuote -> Forall P l -> cq l = 0%nat.
Proof. intros N0 H. apply cq_none. rewrite Forall_forall in H. intros x Hx ->. exact (N0 (H _ Hx)). Qed.
Lemma cq_encode c : cq (encode_char c) = if N.eq_dec c cQuote then 1%nat else 0%nat.
Proof.
  destruct (N.lt_ge_cases c 128) as [Hc|Hc].
  - rewrite (encode_low c Hc). unfold cq. cbn [count_occ]. reflexivity.
  - destruct (encode_high c Hc) as (y & v & Ec & _ & Hyv). rewrite Ec. destruct (N.eq_dec c cQuote); [lia|].
    apply (cq_class (fun b => 128 <= b)); [lia|exact Hyv].
Qed.
Lemma cq_body b s : string_body b s -> (cq s <= cq b)%nat.
Proof.
  induction 1 as [|c b s N1 N2 _ IH|c b s _ IH]; [apply le_n|..]; rewrite cq_app, cq_encode; unfold cq in *; cbn [count_occ].
  - destruct (N.eq_dec c cQuote); [congruence|]. exact IH.
  - destruct (N.eq_dec cBackslash cQuote); [discriminate|]. destruct (N.eq_dec c cQuote); lia.
Qed.
Definition tok_quotes (t : token) : nat := match tk_kind t with TString s => 2 + cq s | _ => 0 end.
Fixpoint quotes (l : list token) : nat := match l with [] => 0 | t :: r => tok_quotes t + quotes r end.
Lemma spells_quotes m k u rest sp src : spells m k u rest -> (tok_quotes (mkToken k sp src) <= cq u)%nat.
Proof.
  intros H. destruct H; unfold tok_quotes; cbn [tk_kind]; try apply Nat.le_0_l.
  - rewrite !cq_app. apply cq_body in H. cbn. unfold cq in *. lia.
  - cbn [punctuation In] in H0. repeat (destruct H0 as [E|H0]; [injection E as <- <-; apply Nat.le_0_l|]). destruct H0.
Qed.
Lemma lexed_quotes src m pre t toks : lexed src m pre t toks -> (quotes toks <= cq t)%nat.
Proof.
  induction 1 as [|m pre g u Hg Hu|m pre g k u rest toks Hg Hs Hl IH]; cbn [quotes]; try apply Nat.le_0_l.
  rewrite !cq_app. pose proof (spells_quotes m k u rest (mkSpan (pos_after (pre ++ g)) (pos_after (pre ++ g ++ u))) src Hs). lia.
Qed.

(** names, numbers and references are displayed without quotes *)
Lemma cq_name s : Forall name_char s -> cq s = 0%nat.
Proof. apply cq_class. unfold name_char, letter, digit. cbn [In]. lia. Qed.
Lemma cq_label s : legal_label s -> cq s = 0%nat.
Proof. intros (_ & H & _). revert H. apply cq_class. unfold label_char, letter, digit. lia. Qed.
Lemma cq_node n : legal_node_name n -> cq (show_node_name n) = 0%nat.
Proof.
  intros H. destruct (legal_node_chars n H) as (H1 & _ & H3). unfold show_node_name. rewrite cq_app.
  assert (K : ~ node_char cQuote) by (unfold node_char, letter, digit; cbn [In]; lia).
  rewrite (cq_class node_char _ K H1). destruct (nn_addr n) as [a|]; [|reflexivity]. rewrite cq_app.
  rewrite (cq_class node_char a K); [reflexivity|]. apply (H3 a). reflexivity.
Qed.
Lemma cq_path p : Forall legal_node_name p -> cq (show_npath p) = 0%nat.
Proof.
  intros H. assert (G : cq (show_components p) = 0%nat).
  { induction H as [|n r Hn _ IH]; [reflexivity|]. cbn [show_components]. rewrite !cq_app, (cq_node n Hn), IH. reflexivity. }
  destruct p; [reflexivity|exact G].
Qed.
Lemma cq_reference t r x : ref_text r x -> is (Ref r) t -> cq (show_reference x) = 0%nat.
Proof.
  intros H _. destruct H as [s Hs|s p _ _ Hp]; cbn [show_reference]; rewrite !cq_app; [rewrite (cq_label s Hs)|rewrite (cq_path p Hp)]; reflexivity.
Qed.
Lemma cq_hex n : cq (show_hex n) = 0%nat.
Proof. pose proof (show_hex_numeral n) as H. apply numeral_alnums in H; [|lia]. revert H. apply cq_class. unfold letter, digit. lia. Qed.
Lemma cq_hex2 n : cq (show_hex2 n) = 0%nat.
Proof.
  pose proof (cq_hex n) as H. unfold show_hex2. destruct (show_hex n) as [|c [|d r]]; exact H.
Qed.
Lemma cq_join {A} (f : A -> str) sep l : cq sep = 0%nat -> cq (join sep (map f l)) = list_sum (map (fun x => cq (f x)) l).
Proof.
  intros H. induction l as [|x l IH]; [reflexivity|]. destruct l as [|y l]; [symmetry; apply Nat.add_0_r|].
  change (join sep (map f (x :: y :: l))) with (f x ++ sep ++ join sep (map f (y :: l))). rewrite !cq_app, H, IH. reflexivity.
Qed.
Lemma sum_zero {A} (f : A -> nat) l : Forall (fun x => f x = 0%nat) l -> list_sum (map f l) = 0%nat.
Proof. induction 1 as [|x l E _ IH]; [reflexivity|]. cbn [map list_sum fold_right]. unfold list_sum in IH. lia. Qed.

(** ** The tokens of a phrase have the quotes of its display; those of an inclusion with # have two more *)
Lemma quotes_app a b : quotes (a ++ b) = (quotes a + quotes b)%nat.
Proof. induction a as [|t a IH]; [reflexivity|]. cbn [app quotes]. lia. Qed.
Lemma suffix_quotes p l : (quotes l <= quotes (p ++ l))%nat.
Proof. rewrite quotes_app. lia. Qed.
Lemma q_cell l c l' : g_cell l c l' -> cq (show_cell c) = 0%nat.
Proof.
  destruct 1 as [t s n l Ht Hn Hb|t r x l Ht Hr|t l u l' Ht Hu Hp]; cbn [show_cell wt_item].
  - rewrite cq_app, cq_hex. reflexivity.
  - eapply cq_reference; eassumption.
  - reflexivity.
Qed.
Lemma q_cells l cs e l' : g_cells l cs e l' -> Forall (fun c => cq (show_cell c) = 0%nat) cs.
Proof. induction 1 as [|l l1 c l2 cs t l' Ho Hc _ IH]; constructor; [eapply q_cell; eassumption|exact IH]. Qed.
Lemma q_value l v l' : g_value l v l' -> (cq (show_value v) + quotes l' <= quotes l)%nat.
Proof.
  destruct 1 as [l t s l' Hb Ht|l t r x l' Hb Ht Hr|l t l1 cs e l' Hb Ht Hc|l t l1 ss e l' Hb Ht Hc];
    destruct (g_bits_any _ _ Hb) as (q & -> & _); rewrite quotes_app; cbn [quotes show_value wt_item].
  - rewrite !cq_app. unfold tok_quotes. rewrite Ht. cbn. lia.
  - rewrite (cq_reference t r x Hr Ht). lia.
  - rewrite !cq_app, cq_join by reflexivity. rewrite (sum_zero (fun c => cq (show_cell c))) by (eapply q_cells; exact Hc).
    destruct (g_cells_any _ _ _ _ Hc) as (p & -> & _). pose proof (suffix_quotes p l'). cbn. lia.
  - rewrite !cq_app, cq_join by reflexivity. rewrite sum_zero.
    + destruct (g_bytes_any _ _ _ _ Hc) as (p & -> & _). pose proof (suffix_quotes p l'). cbn. lia.
    + clear. apply Forall_forall. intros w _. induction (wt_item w) as [|b r IH]; [reflexivity|]. cbn [map concat]. rewrite cq_app, cq_hex2, IH. reflexivity.
Qed.
Lemma q_opt_label l l' : opt_label l l' -> (quotes l' <= quotes l)%nat.
Proof. intros H. destruct (opt_label_any _ _ H) as (p & -> & _). apply suffix_quotes. Qed.
Lemma q_label l lb l' : g_label l lb l' -> (quotes l' <= quotes l)%nat /\ cq (match lb with Some x => wt_item x ++ bs ": " | None => [] end) = 0%nat.
Proof.
  intros H. split; [destruct (g_label_any _ _ _ H) as (p & -> & _); apply suffix_quotes|].
  destruct H as [|t s l Ht Hs]; [reflexivity|]. cbn [wt_item]. rewrite cq_app, (cq_label s Hs). reflexivity.
Qed.
Lemma q_omit l o l' : g_omit l o l' -> (quotes l' <= quotes l)%nat.
Proof. intros H. destruct (g_omit_any _ _ _ H) as (p & -> & _). apply suffix_quotes. Qed.
Lemma q_end l e l' n : g_end l e l' n -> (quotes l' <= quotes l)%nat.
Proof. destruct 1; cbn [quotes]; lia. Qed.
Lemma q_values l vs l' : g_values l vs l' -> vs <> [] /\ (cq (join (bs ", ") (map show_value vs)) + quotes l' <= quotes l)%nat.
Proof.
  intros H. rewrite cq_join by reflexivity.
  induction H as [l l1 v l2 l' Ho Hv Ho' He|l l1 v l2 c l3 vs l' Ho Hv Ho' Hc _ [_ IH]]; (split; [discriminate|]);
    pose proof (q_opt_label _ _ Ho); pose proof (q_value _ _ _ Hv); pose proof (q_opt_label _ _ Ho'); cbn [map list_sum fold_right quotes] in *; unfold list_sum in *; lia.
Qed.
Lemma q_body :
  (forall l pl l' n, g_body l pl l' n -> (cq (show_payload pl) + quotes l' <= quotes l)%nat)
  /\ (forall seen l its l' n, g_items seen l its l' n -> (cq (show_items its) + quotes l' <= quotes l)%nat).
Proof.
  apply g_body_items_ind.
  - intros l its n l1 o l2 lb c l3 e l4 m Hi IH Ho Hl Hc He. rewrite show_payload_items, !cq_app.
    pose proof (q_omit _ _ _ Ho). pose proof (proj1 (q_label _ _ _ Hl)). pose proof (q_end _ _ _ _ He). cbn [quotes] in *.
    change (cq (bs "{")) with 0%nat. change (cq nl) with 0%nat. change (cq (bs "};")) with 0%nat. lia.
  - intros seen l. cbn. lia.
  - intros seen d t s nm l e l1 m its l2 n Hd Ht Hn Hg He Hi IH. cbn [show_items show_item wt_item quotes]. rewrite !cq_app, (cq_node nm Hg).
    pose proof (q_end _ _ _ _ He). change (cq (bs "    ")) with 0%nat. change (cq (bs "/delete-node/ ")) with 0%nat. change (cq nl) with 0%nat. lia.
  - intros seen d t s l e l1 m its l2 n Hd Ht Hg He Hi IH. cbn [show_items show_item wt_item quotes]. rewrite !cq_app, (cq_name s (proj2 Hg)).
    pose proof (q_end _ _ _ _ He). change (cq (bs "    ")) with 0%nat. change (cq (bs "/delete-property/ ")) with 0%nat. change (cq nl) with 0%nat. lia.
  - intros l lb t s q l1 vs l2 e l3 m its l4 n Hl Ht Hn Hq Hv He Hi IH. cbn [show_items show_item]. unfold show_property. cbn [pr_values pr_name wt_item].
    destruct (q_values _ _ _ Hv) as [Hne Hqv]. destruct vs as [|v vs]; [congruence|]. rewrite !cq_app, (cq_name s (proj2 Hn)).
    pose proof (q_end _ _ _ _ He). pose proof (proj1 (q_label _ _ _ Hl)). cbn [quotes] in *.
    change (cq (bs "    ")) with 0%nat. change (cq (bs " = ")) with 0%nat. change (cq (bs ";")) with 0%nat. change (cq nl) with 0%nat. lia.
  - intros l lb t s e l1 its l2 n Hl Ht Hn He Hi IH. cbn [show_items show_item]. unfold show_property. cbn [pr_values pr_name wt_item].
    rewrite !cq_app, (cq_name s (proj2 Hn)). pose proof (proj1 (q_label _ _ _ Hl)). cbn [quotes] in *.
    change (cq (bs "    ")) with 0%nat. change (cq (bs ";")) with 0%nat. change (cq nl) with 0%nat. lia.
  - intros seen l o l1 lb t s nm b l2 pl l3 m its l4 n Ho Hl Ht Hn Hg Hb Hbd IHb Hi IH. cbn [show_items show_item show_node wt_item].
    destruct (q_label _ _ _ Hl) as [L1 L2]. pose proof (q_omit _ _ _ Ho). rewrite !cq_app, L2, (cq_node nm Hg). cbn [quotes] in *.
    change (cq (bs "    ")) with 0%nat. change (cq (bs " ")) with 0%nat. change (cq nl) with 0%nat. lia.
Qed.
Definition c_include (p : primary) : Prop := match p with PCStyleInclude _ => True | _ => False end.
Lemma q_primary incl l p l' n : g_primary incl l p l' n ->
  (cq (show_primary p) + quotes l' <= quotes l)%nat /\ (c_include p -> (cq (show_primary p) + quotes l' < quotes l)%nat).
Proof.
  intros H. destruct H as [t l e l' m Ht He|t l e l' m Ht He|t a sa na b sb nb l e l' m Ht Ha La Na Hb Lb Nb He
        |t f s l Ht Hf'|t f s l Ht Hf' Hn|t b l pl l' m Ht Hb Hbd|t r x b l pl l' m Ht Hr Hb Hbd
        |d t r x l e l' m Hd Ht Hr He|d t r x l e l' m Hd Ht Hr He];
    cbn [c_include show_primary show_any_directive show_node quotes in_file_name wt_item];
    unfold show_memreserve, show_include, show_ref_node; cbn [in_file_name wt_item rn_reference rn_payload]; rewrite ?cq_app, ?cq_hex.
  - pose proof (q_end _ _ _ _ He). change (cq (bs "/dts-v1/;")) with 0%nat. split; [lia|intros []].
  - pose proof (q_end _ _ _ _ He). change (cq (bs "/plugin/;")) with 0%nat. split; [lia|intros []].
  - pose proof (q_end _ _ _ _ He). change (cq (bs "/memreserve/ 0x")) with 0%nat. change (cq (bs " 0x")) with 0%nat. change (cq (bs ";")) with 0%nat. split; [lia|intros []].
  - unfold tok_quotes at 2 4. rewrite Hf'. change (cq (bs "#include ")) with 0%nat. lia.
  - unfold tok_quotes at 2. rewrite Hf'. change (cq (bs "/include/ """)) with 1%nat. change (cq (bs """")) with 1%nat. split; [lia|intros []].
  - pose proof (proj1 q_body _ _ _ _ Hbd). change (cq []) with 0%nat. change (cq (show_node_name (mkNN (bs "/") None))) with 0%nat. change (cq (bs " ")) with 0%nat. split; [lia|intros []].
  - pose proof (proj1 q_body _ _ _ _ Hbd). rewrite (cq_reference t r x Hr Ht). change (cq (bs " ")) with 0%nat. split; [lia|intros []].
  - pose proof (q_end _ _ _ _ He). rewrite (cq_reference t r x Hr Ht). change (cq (bs "/delete-node/ ")) with 0%nat. change (cq (bs ";")) with 0%nat. split; [lia|intros []].
  - pose proof (q_end _ _ _ _ He). rewrite (cq_reference t r x Hr Ht). change (cq (bs "/omit-if-no-ref/ ")) with 0%nat. change (cq (bs ";")) with 0%nat. split; [lia|intros []].
Qed.
Lemma q_file incl l ps n : g_file incl l ps n ->
  (cq (show_all ps) <= quotes l)%nat /\ (Exists c_include ps -> (cq (show_all ps) < quotes l)%nat).
Proof.
  induction 1 as [|l p l' m ps n Hp _ [IH1 IH2]]; [split; [apply le_n|intros H; inversion H]|].
  destruct (q_primary _ _ _ _ _ Hp) as [P1 P2]. unfold show_all in *. cbn [map concat]. rewrite !cq_app. change (cq nl) with 0%nat.
  split; [lia|]. intros H. inversion H as [? ? K|? ? K]; subst; [specialize (P2 K); lia|specialize (IH2 K); lia].
Qed.

(** ** Reading a displayed text forward *)
Definition here (src : fpath) (m : mode) (t : list N) (toks : list token) : Prop :=
  exists pre, valid_utf8 (pre ++ t) = true /\ lexed src m pre t toks.
Lemma here_tok src m k u t toks : here src m (u ++ t) toks -> spells m k u t ->
  exists x r, toks = x :: r /\ is k x /\ here src (mode_after k m) t r.
Proof.
  intros (pre & V & L) Hs. destruct (lexed_total src (mode_after k m) (pre ++ [] ++ u) t) as [r Hr].
  pose proof (lx_token src m pre [] k u t r gap_nil Hs Hr) as L2. cbn [app] in L2.
  rewrite (lexed_fun (pre ++ u ++ t) src V m pre (u ++ t) _ _ eq_refl L L2). eexists _, r. split; [reflexivity|]. split; [reflexivity|].
  exists (pre ++ u). split; [rewrite <- app_assoc; exact V|exact Hr].
Qed.
Lemma here_ws src m c t toks : here src m (c :: t) toks -> ws_char c -> here src m t toks.
Proof.
  intros (pre & V & L) Hc. destruct (lexed_total src m (pre ++ [c]) t) as [r Hr].
  pose proof (lexed_gap src [c] (gap_ws c [] Hc gap_nil) m pre t r Hr) as L2. cbn [app] in L2.
  rewrite (lexed_fun (pre ++ c :: t) src V m pre (c :: t) _ _ eq_refl L L2). exists (pre ++ [c]). split; [rewrite <- app_assoc; exact V|exact Hr].
Qed.
Lemma here_space src m t toks : here src m (cSpace :: t) toks -> here src m t toks.
Proof. intros H. apply (here_ws _ _ _ _ _ H). unfold ws_char. cbn [In]. auto. Qed.
Lemma here_nl src m t toks : here src m (cNL :: t) toks -> here src m t toks.
Proof. intros H. apply (here_ws _ _ _ _ _ H). unfold ws_char. cbn [In]. auto. Qed.
Lemma here_ok src m t toks : here src m t toks -> Forall tok_ok toks.
Proof. intros (pre & _ & L). exact (lexed_tok_ok _ _ _ _ _ L). Qed.
Lemma here_punct src m c k t toks : here src m (c :: t) toks -> In c [cSemi; cEq; cLBracket; cRBracket; cLPar; cRPar; cLBrace; cRBrace; cLt; cGt] -> In (c, k) punctuation ->
  exists x r, toks = x :: r /\ is k x /\ here src (mode_after k m) t r.
Proof. intros H Hc Hk. apply (here_tok src m k [c] t toks H). apply sp_punct; [apply not_start; exact Hc|exact Hk]. Qed.
Lemma here_name src m s t toks : here src m (s ++ t) toks -> (exists c r, s = c :: r /\ name_start m c) -> Forall name_char s -> name_stop t ->
  exists x r, toks = x :: r /\ is (Ident s) x /\ here src m t r.
Proof.
  intros H (c & r & -> & Hs) Hc Hd. apply (here_tok src m (Ident (c :: r)) _ t toks H). apply sp_name; [exact Hs|exact Hc|].
  intros x r' E. eapply name_stop_not; eassumption.
Qed.
Lemma here_node_name src n t toks : here src NameExpected (show_node_name n ++ t) toks -> legal_node_name n -> name_stop t ->
  exists x r, toks = x :: r /\ is (Ident (show_node_name n)) x /\ here src NameExpected t r.
Proof.
  intros H Hn Hd. apply (here_tok src NameExpected (Ident (show_node_name n)) _ t toks H).
  destruct (legal_node_chars n Hn) as (H1 & (c & r & E & Hc) & H3).
  assert (Hs : name_start NameExpected c) by (unfold name_start; tauto).
  assert (Hk : Forall name_char (nn_name n)) by (eapply Forall_impl; [|exact H1]; exact node_char_name).
  clear H. destruct n as [s o]. unfold show_node_name. cbn [nn_name nn_addr] in *. subst s. destruct o as [a|].
  - destruct (H3 a eq_refl) as [_ Ha]. assert (Ha2 : Forall name_char a) by (eapply Forall_impl; [|exact Ha]; exact node_char_name).
    apply sp_name_at; [exact Hs|exact Hk|exact Ha2|]. intros x q K. eapply name_stop_not; eassumption.
  - rewrite app_nil_r. apply sp_name; [exact Hs|exact Hk|]. intros x q K. eapply name_stop_not; eassumption.
Qed.
Lemma here_label src s t toks : here src NameExpected ((s ++ [cColon]) ++ t) toks -> legal_label s ->
  exists x r, toks = x :: r /\ is (Label s) x /\ here src NameExpected t r.
Proof.
  intros H Hl. apply (here_tok src NameExpected (Label s) _ t toks H). destruct (label_start_letter s Hl) as (c & q & -> & Hs).
  apply sp_label; [exact Hs|]. destruct Hl as (_ & Hl & _). eapply Forall_impl; [|exact Hl]. exact label_char_name.
Qed.
Lemma here_directive src m s d t toks : here src m (([cSlash] ++ s ++ [cSlash]) ++ t) toks -> In (s, d) known_directives ->
  exists x r, toks = x :: r /\ is (Directive d) x /\ here src m t r.
Proof.
  intros H Hd. apply (here_tok src m (Directive d) _ t toks H).
  assert (G : exists c r, s = c :: r /\ letter c /\ ~ In cSlash s).
  { clear H. cbn [known_directives In] in Hd.
    repeat (destruct Hd as [Hd|Hd]; [injection Hd as <- _; eexists; eexists; split; [reflexivity|];
      split; [apply is_alpha_spec; reflexivity|];
      intros K; vm_compute in K; repeat (destruct K as [K|K]; [discriminate K|]); exact K|]). destruct Hd. }
  destruct G as (c & r & -> & Hc & Hn). apply LexSpec.sp_directive; [exact Hc|exact Hn|]. left. exact Hd.
Qed.
Lemma here_reference src m r t toks : here src m (show_reference r ++ t) toks -> ref_ok r -> stop t ->
  exists x q k, toks = x :: q /\ is (Ref k) x /\ here src m t q.
Proof.
  destruct r as [s|p]; cbn [ref_ok show_reference]; intros H Hr Hd.
  - destruct Hr as [Hl (c & q & -> & Hc)]. destruct (here_tok src m (Ref (TRefSimple (c :: q))) (cAmp :: c :: q) t toks H) as (x & y & -> & Hx & Hy).
    + apply LexSpec.sp_ref; [exact Hc|apply Hl|]. intros x r E. eapply stop_not; eassumption.
    + eexists _, _, _. split; [reflexivity|]. split; [exact Hx|exact Hy].
  - destruct (show_npath_chars p Hr) as (C1 & _ & _). destruct (here_tok src m (Ref (TRefPath (show_npath p))) ([cAmp; cLBrace] ++ show_npath p ++ [cRBrace]) t toks H) as (x & y & -> & Hx & Hy).
    + apply LexSpec.sp_ref_path. exact C1.
    + eexists _, _, _. split; [reflexivity|]. split; [exact Hx|exact Hy].
Qed.
Lemma here_hex src m n t toks : here src m ((bs "0x" ++ show_hex n) ++ t) toks -> stop t ->
  exists x q s, toks = x :: q /\ is (UnparsedNumber s) x /\ here src m t q.
Proof.
  intros H Hd. destruct (here_tok src m (UnparsedNumber (bs "0x" ++ show_hex n)) (bs "0x" ++ show_hex n) t toks H) as (x & y & -> & Hx & Hy).
  - pose proof (show_hex_numeral n) as Hn. apply numeral_alnums in Hn; [|lia].
    assert (Ha : Forall (fun c => letter c \/ digit c) (bs "0x" ++ show_hex n)).
    { apply Forall_app. split; [|exact Hn]. change (bs "0x") with [48; 120]. repeat (constructor; [unfold letter, digit; lia|]). constructor. }
    apply sp_number; [unfold digit; split; discriminate|exact Ha|]. intros x r E. eapply stop_not; eassumption.
  - eexists _, _, _. split; [reflexivity|]. split; [exact Hx|exact Hy].
Qed.

(** the token that stands at a quote *)
Lemma gap_quote g x : gap g -> forall t, g ++ x = cQuote :: t -> g = [].
Proof.
  intros H t E. destruct H as [|c g Hc _|b g _ _|b g _ _]; [reflexivity|..]; cbn [app] in E; exfalso.
  - assert (c = cQuote) by congruence. subst c. unfold ws_char in Hc. cbn [In] in Hc. repeat (destruct Hc as [Hc|Hc]; [discriminate Hc|]). exact Hc.
  - discriminate.
  - discriminate.
Qed.
Lemma spells_quote m k u rest t : spells m k u rest -> u ++ rest = cQuote :: t -> exists b s, k = TString s /\ string_body b s /\ t = b ++ cQuote :: rest.
Proof.
  assert (NQ : forall m, ~ name_start m cQuote).
  { intros m' K. unfold name_start, letter in K. cbn [In] in K. destruct K as [K|[K|[_ K]]]; [lia|discriminate|]. repeat (destruct K as [K|K]; [discriminate K|]). exact K. }
  intros H E. destruct H as [c s rest Hs|c s a rest Hs|c s rest Hs|c s rest Hd|c s rest|x r|p rest|b s rest Hb|rest|c s d rest|c s d|c k rest Hn Hp|c rest Hw Hn Hd Hi Hp]; cbn [app] in E;
    try discriminate E.
  - assert (E1 : c = cQuote) by congruence. subst c. destruct (NQ _ Hs).
  - assert (E1 : c = cQuote) by congruence. subst c. destruct (NQ _ Hs).
  - assert (E1 : c = cQuote) by congruence. subst c. destruct (NQ _ Hs).
  - assert (E1 : c = cQuote) by congruence. subst c. unfold digit in Hd. lia.
  - exists b, s. split; [reflexivity|]. split; [exact Hb|]. rewrite <- app_assoc in E. cbn [app] in E. congruence.
  - assert (E1 : c = cQuote) by congruence. subst c. cbn [punctuation In] in Hp. repeat (destruct Hp as [Hp|Hp]; [discriminate Hp|]). destruct Hp.
  - assert (E1 : c = cQuote) by congruence. subst c. destruct Hi. cbn [In]. auto.
Qed.
Lemma here_string src m s t x toks : here src m ((cQuote :: s) ++ cQuote :: t) (x :: toks) -> is (TString s) x ->
  Forall plain_char s /\ here src m t toks.
Proof.
  intros (pre & V & L) Hx. inversion L as [| |? ? g k u rest ? Hg Hs Hl]; subst. cbn [app] in *.
  match goal with E : g ++ u ++ rest = _ |- _ => rename E into Et end.
  pose proof (gap_quote g (u ++ rest) Hg _ Et). subst g. cbn [app] in *. destruct (spells_quote _ _ _ _ _ Hs Et) as (b & s' & -> & Hb & E).
  unfold is in Hx. cbn [tk_kind] in Hx. injection Hx as ->. destruct (own_spelling b s Hb t rest E) as [P ->]. split; [exact P|].
  exists (pre ++ u). split; [rewrite <- app_assoc, Et; exact V|exact Hl].
Qed.
Lemma here_quote src m t x toks : here src m (cQuote :: t) (x :: toks) -> exists s, is (TString s) x.
Proof.
  intros (pre & V & L). inversion L as [| |? ? g k u rest ? Hg Hs Hl]; subst.
  match goal with E : g ++ u ++ rest = _ |- _ => rename E into Et end.
  pose proof (gap_quote g (u ++ rest) Hg _ Et). subst g. cbn [app] in *. destruct (spells_quote _ _ _ _ _ Hs Et) as (b & s' & -> & _).
  exists s'. reflexivity.
Qed.

(** ** Phrases whose text is the display of what they denote *)
Ltac clash := exfalso; unfold is in *; congruence.
Lemma no_label x r l : opt_label (x :: r) l -> (forall s, ~ is (Label s) x) -> l = x :: r.
Proof. intros H N0. inversion H as [|t s l0 Ht]; subst; [reflexivity|]. destruct (N0 _ Ht). Qed.
Lemma no_bits x r l : g_bits (x :: r) l -> ~ is (Directive Bits) x -> l = x :: r.
Proof. intros H N0. inversion H; subst; [reflexivity|]. contradiction. Qed.

Lemma only_cell src m l l1 c l2 t : opt_label l l1 -> g_cell l1 c l2 -> here src m (show_cell c ++ t) l -> stop t -> here src m t l2.
Proof.
  intros Ho Hc H Hd. pose proof (here_ok _ _ _ _ H) as Hok. assert (Hok1 : Forall tok_ok l1) by (destruct (opt_label_any _ _ Ho) as (p & -> & _); apply suffix_of in Hok; exact Hok).
  pose proof (cell_read_ok _ _ _ Hc Hok1) as Hco. destruct Hc as [u s n l2 Hu Hn Hb|u r x l2 Hu Hr|u l2 v l3 Hu Hv Hp]; cbn [show_cell wt_item cell_ok] in *.
  - destruct (here_hex src m n t l H Hd) as (x & q & s' & -> & Hx & Hq). apply no_label in Ho; [|intros s0 K; clash]. injection Ho as <- <-. exact Hq.
  - destruct (here_reference src m x t l H Hco Hd) as (y & q & k & -> & Hy & Hq). apply no_label in Ho; [|intros s0 K; clash]. injection Ho as <- <-. exact Hq.
  - change (bs "(not implemented)" ++ t) with (cLPar :: bs "not" ++ (cSpace :: bs "implemented" ++ (cRPar :: t))) in H.
    destruct (here_punct src m cLPar OpenParen _ _ H) as (x1 & q1 & -> & Hx1 & H1); [member|member|]. cbn [mode_after] in H1.
    destruct (here_name src m (bs "not") _ _ H1) as (x2 & q2 & -> & Hx2 & H2); [apply lower_word; [reflexivity|discriminate]|apply (lower_word m); [reflexivity|discriminate]|apply name_stop_cons; member|].
    apply here_space in H2.
    destruct (here_name src m (bs "implemented") _ _ H2) as (x3 & q3 & -> & Hx3 & H3); [apply lower_word; [reflexivity|discriminate]|apply (lower_word m); [reflexivity|discriminate]|apply name_stop_cons; member|].
    destruct (here_punct src m cRPar CloseParen _ _ H3) as (x4 & q4 & -> & Hx4 & H4); [member|member|]. cbn [mode_after] in H4.
    apply no_label in Ho; [|intros s0 K; clash]. injection Ho as -> ->.
    assert (K : parens (x2 :: x3 :: x4 :: q4) (x4 :: q4)) by (repeat (apply pa_token; [intros K; clash|intros K; clash|]); constructor).
    clear - Hp Hv Hx2 Hx3 Hx4 H4. inversion Hp; subst; [clash| |clash]. match goal with K : parens (x3 :: _) _ |- _ => inversion K; subst; [clash| |clash] end.
    match goal with K : parens (x4 :: _) _ |- _ => inversion K; subst; [exact H4|contradiction|clash] end.
Qed.
Lemma only_cells src m l cs e l' : g_cells l cs e l' -> forall rest, here src m (join (bs " ") (map show_cell cs) ++ cGt :: rest) l -> here src m rest l'.
Proof.
  induction 1 as [l t l' Ho Ht|l l1 c l2 cs t l' Ho Hc Hcs IH]; intros rest H.
  - cbn [map join app] in H. destruct (here_punct src m cGt ChevronRight _ _ H) as (x & q & -> & Hx & Hq); [member|member|].
    apply no_label in Ho; [|intros s0 K; clash]. injection Ho as -> ->. exact Hq.
  - destruct cs as [|c2 cs].
    + cbn [map join] in H. apply IH. cbn [map join app]. eapply only_cell; [exact Ho|exact Hc|exact H|apply stop_cons; member].
    + change (join (bs " ") (map show_cell (c :: c2 :: cs))) with (show_cell c ++ bs " " ++ join (bs " ") (map show_cell (c2 :: cs))) in H.
      rewrite <- !app_assoc in H. apply IH. apply here_space. eapply only_cell; [exact Ho|exact Hc|exact H|apply stop_cons; member].
Qed.

Lemma here_element src m w t toks : here src m (w ++ t) toks -> w <> [] -> Forall (fun c => letter c \/ digit c) w -> name_stop t ->
  exists x q, toks = x :: q /\ element_text x w /\ here src m t q.
Proof.
  intros H Hw Ha Hd. destruct w as [|c s]; [congruence|]. pose proof (Forall_inv Ha) as [Hc|Hc].
  - destruct (here_name src m (c :: s) t toks H) as (x & q & -> & Hx & Hq); [exists c, s; split; [reflexivity|left; exact Hc]|eapply Forall_impl; [|exact Ha]; exact alnum_name|exact Hd|].
    exists x, q. split; [reflexivity|]. split; [right; exact Hx|exact Hq].
  - destruct (here_tok src m (UnparsedNumber (c :: s)) (c :: s) t toks H) as (x & q & -> & Hx & Hq).
    { apply sp_number; [exact Hc|exact Ha|]. intros x r E2. eapply stop_not; [apply name_stop_stop; exact Hd|exact E2]. }
    exists x, q. split; [reflexivity|]. split; [left; exact Hx|exact Hq].
Qed.
Lemma element_text_fun e s s' : element_text e s -> element_text e s' -> s = s'.
Proof. intros [H|H] [K|K]; unfold is in *; congruence. Qed.
Lemma byte_text_length s b : byte_text s b -> length s = (2 * length b)%nat.
Proof. induction 1 as [|c d x y s b _ _ _ _ _ IH|d y s b _ _ _ IH]; cbn [length]; lia. Qed.
Lemma show_bytes_app a b : show_bytes (a ++ b) = show_bytes a ++ show_bytes b.
Proof. unfold show_bytes. rewrite map_app, concat_app. reflexivity. Qed.
Lemma show_bytes_length ws : Forall wide_byte ws -> length (show_bytes ws) = (2 * length ws)%nat.
Proof. intros H. apply byte_text_length. apply (show_bytes_text ws H). Qed.
Lemma narrow b : b < 16 -> exists d, show_hex2 b = [cSpace; d] /\ (letter d \/ digit d).
Proof.
  intros H. assert (A : forallb (fun n => match show_hex2 (N.of_nat n) with [c; d] => (c =? cSpace) && (is_lower d || is_digit d) | _ => false end) (List.seq 0 16) = true) by (vm_compute; reflexivity).
  rewrite forallb_forall in A. specialize (A (N.to_nat b)). rewrite in_seq, N2Nat.id in A. specialize (A ltac:(lia)).
  destruct (show_hex2 b) as [|c [|d [|]]]; try discriminate. apply andb_prop in A. destruct A as [A1 A2]. apply N.eqb_eq in A1. subst c.
  exists d. split; [reflexivity|]. apply orb_prop in A2. unfold is_lower, is_digit, letter, digit in *. lia.
Qed.
(** the first byte with one digit *)
Lemma wide_split b : Forall (fun x => x < 256) b -> exists ws tl, b = ws ++ tl /\ Forall wide_byte ws /\ (tl = [] \/ exists n r, tl = n :: r /\ n < 16).
Proof.
  induction 1 as [|x b Hx _ (ws & tl & -> & Hw & Ht)]; [exists [], []; repeat split; [constructor|left; reflexivity]|].
  destruct (N.lt_ge_cases x 16) as [Hn|Hn].
  - exists [], (x :: ws ++ tl). split; [reflexivity|]. split; [constructor|]. right. exists x, (ws ++ tl). auto.
  - exists (x :: ws), tl. split; [reflexivity|]. split; [constructor; [split; assumption|exact Hw]|exact Ht].
Qed.
Lemma bytes_stop tl t : (tl = [] \/ exists n r, tl = n :: r /\ n < 16) -> name_stop t -> name_stop (show_bytes tl ++ t).
Proof.
  intros [->|(n & r & -> & Hn)] Ht; [exact Ht|]. destruct (narrow n Hn) as (d & E & _). unfold show_bytes. cbn [map concat]. rewrite E. cbn [app].
  apply name_stop_cons. member.
Qed.
Lemma only_element src m l e s b l2 t : opt_label l (e :: l2) -> element_text e s -> byte_text s b -> here src m (show_bytes b ++ t) l -> name_stop t ->
  Forall (fun x => 16 <= x) b /\ here src m t l2.
Proof.
  intros Ho He Hb H Hd. pose proof (here_ok _ _ _ _ H) as Hok.
  assert (Hs : s <> []).
  { assert (Te : tok_ok e) by (destruct (opt_label_any _ _ Ho) as (p & -> & _); apply suffix_of in Hok; exact (Forall_inv Hok)).
    destruct Te as (T1 & T2 & _). destruct He as [He|He]; [apply T2; exact He|]. destruct (T1 _ He) as (c & r & -> & _). discriminate. }
  destruct (byte_text_small _ _ Hb) as [B1 B2]. specialize (B2 Hs). pose proof (byte_text_length _ _ Hb) as Lb.
  destruct (wide_split b B1) as (ws & tl & -> & Hw & Ht). rewrite show_bytes_app, <- app_assoc in H.
  assert (F : forall w t' q, here src m (w ++ t') q -> (q = l) -> w <> [] -> Forall (fun c => letter c \/ digit c) w -> name_stop t' -> s = w /\ here src m t' l2).
  { intros w t' q Hh -> Hne Ha Hst. destruct (here_element src m w t' l Hh Hne Ha Hst) as (x & q & -> & Hx & Hq).
    apply no_label in Ho; [|intros s0 K; destruct Hx; clash]. injection Ho as -> ->. split; [exact (element_text_fun _ _ _ He Hx)|exact Hq]. }
  destruct ws as [|w0 ws].
  - destruct Ht as [->|(n & r & -> & Hn)]; [destruct (B2 eq_refl)|]. exfalso.
    destruct (narrow n Hn) as (d & E & Hdc). cbn [app] in *. change (show_bytes []) with (@nil N) in H. cbn [app] in H.
    change (show_bytes (n :: r)) with (show_hex2 n ++ show_bytes r) in H. rewrite E in H. cbn [app] in H. apply here_space in H.
    destruct (wide_split r) as (vs & tl' & -> & Hv & Ht'); [inversion B1; assumption|]. rewrite show_bytes_app, <- app_assoc in H.
    destruct (F (d :: show_bytes vs) (show_bytes tl' ++ t) l) as [-> _]; [exact H|reflexivity|discriminate| |apply bytes_stop; assumption|].
    + constructor; [exact Hdc|]. apply (show_bytes_text vs Hv).
    + cbn [length] in Lb. rewrite (show_bytes_length vs Hv) in Lb. lia.
  - destruct (F (show_bytes (w0 :: ws)) (show_bytes tl ++ t) l H eq_refl) as [-> H2].
    + apply (show_bytes_text _ Hw). discriminate.
    + apply (show_bytes_text _ Hw).
    + apply bytes_stop; assumption.
    + rewrite (show_bytes_length _ Hw), app_length in Lb. destruct tl as [|y tl]; [|cbn [length] in Lb; lia].
      split; [rewrite app_nil_r; eapply Forall_impl; [|exact Hw]; intros x [K _]; exact K|exact H2].
Qed.
Lemma only_bytes src m l ss e l' : g_bytes l ss e l' -> forall rest, here src m (join (bs " ") (map (fun w => show_bytes (wt_item w)) ss) ++ cRBracket :: rest) l ->
  Forall (fun w => Forall (fun b => 16 <= b) (wt_item w)) ss /\ here src m rest l'.
Proof.
  induction 1 as [l t l' Ho Ht|l e s b l2 ss t l' Ho He Hb Hss IH]; intros rest H.
  - cbn [map join app] in H. destruct (here_punct src m cRBracket CloseBracket _ _ H) as (x & q & -> & Hx & Hq); [member|member|].
    apply no_label in Ho; [|intros s0 K; clash]. injection Ho as -> ->. split; [constructor|exact Hq].
  - destruct ss as [|w2 ss].
    + cbn [map join wt_item] in H. destruct (only_element src m l e s b l2 _ Ho He Hb H) as [P Q]; [apply name_stop_cons; member|].
      destruct (IH rest Q) as [_ Q2]. split; [constructor; [exact P|constructor]|exact Q2].
    + change (join (bs " ") (map (fun w => show_bytes (wt_item w)) (mkWT b e :: w2 :: ss)))
        with (show_bytes b ++ bs " " ++ join (bs " ") (map (fun w => show_bytes (wt_item w)) (w2 :: ss))) in H.
      rewrite <- !app_assoc in H. destruct (only_element src m l e s b l2 _ Ho He Hb H) as [P Q]; [apply name_stop_cons; member|].
      apply here_space in Q. destruct (IH rest Q) as [P2 Q2]. split; [constructor; [exact P|exact P2]|exact Q2].
Qed.

Lemma only_value src m l l1 v l2 t : opt_label l l1 -> g_value l1 v l2 -> here src m (show_value v ++ t) l -> stop t -> plain_value v /\ here src m t l2.
Proof.
  intros Ho Hv H Hd. pose proof (here_ok _ _ _ _ H) as Hok. assert (Hok1 : Forall tok_ok l1) by (destruct (opt_label_any _ _ Ho) as (p & -> & _); apply suffix_of in Hok; exact Hok).
  destruct Hv as [l1 u s l2 Hb Hu|l1 u r x l2 Hb Hu Hr|l1 u l3 cs e l2 Hb Hu Hc|l1 u l3 ss e l2 Hb Hu Hc]; cbn [show_value wt_item plain_value] in *.
  - change (bs """" ++ s ++ bs """") with (cQuote :: s ++ [cQuote]) in H. cbn [app] in H. rewrite <- app_assoc in H. cbn [app] in H.
    destruct l as [|x q]; [inversion Ho; subst; inversion Hb|]. destruct (here_quote src m _ x q H) as [s' Hx].
    apply no_label in Ho; [|intros s0 K; clash]. subst l1. apply no_bits in Hb; [|intros K; clash]. injection Hb as -> ->.
    exact (here_string src m s t x q H Hu).
  - assert (Hro : ref_ok x).
    { destruct (g_bits_any _ _ Hb) as (p & -> & _). apply suffix_of in Hok1. eapply ref_text_ok; [exact (Forall_inv Hok1)|exact Hu|exact Hr]. }
    destruct (here_reference src m x t l H Hro Hd) as (y & q & k & -> & Hy & Hq). apply no_label in Ho; [|intros s0 K; clash]. subst l1.
    apply no_bits in Hb; [|intros K; clash]. injection Hb as -> ->. split; [exact I|exact Hq].
  - change (bs "<" ++ join (bs " ") (map show_cell cs) ++ bs ">") with (cLt :: (join (bs " ") (map show_cell cs) ++ [cGt])) in H. cbn [app] in H. rewrite <- app_assoc in H. cbn [app] in H.
    destruct (here_punct src m cLt ChevronLeft _ _ H) as (x & q & -> & Hx & Hq); [member|member|]. apply no_label in Ho; [|intros s0 K; clash]. subst l1.
    apply no_bits in Hb; [|intros K; clash]. injection Hb as -> ->. split; [exact I|]. exact (only_cells src m _ _ _ _ Hc t Hq).
  - change (bs "[" ++ join (bs " ") (map (fun w => concat (map show_hex2 (wt_item w))) ss) ++ bs "]") with (cLBracket :: (join (bs " ") (map (fun w => show_bytes (wt_item w)) ss) ++ [cRBracket])) in H.
    cbn [app] in H. rewrite <- app_assoc in H. cbn [app] in H.
    destruct (here_punct src m cLBracket OpenBracket _ _ H) as (x & q & -> & Hx & Hq); [member|member|]. apply no_label in Ho; [|intros s0 K; clash]. subst l1.
    apply no_bits in Hb; [|intros K; clash]. injection Hb as -> ->. exact (only_bytes src m _ _ _ _ Hc t Hq).
Qed.
Lemma only_values src l vs l' : g_values l vs l' -> forall rest, here src Elsewhere (join (bs ", ") (map show_value vs) ++ cSemi :: rest) l ->
  Forall plain_value vs /\ here src Elsewhere (cSemi :: rest) l'.
Proof.
  induction 1 as [l l1 v l2 l' Ho Hv Ho' He|l l1 v l2 c l3 vs l' Ho Hv Ho' Hc Hvs IH]; intros rest H.
  - cbn [map join] in H. destruct (only_value src Elsewhere l l1 v l2 _ Ho Hv H) as [P Q]; [apply stop_cons; member|].
    split; [constructor; [exact P|constructor]|]. destruct (here_punct src Elsewhere cSemi Semicolon _ _ Q) as (x & q & -> & Hx & _); [member|member|].
    apply no_label in Ho'; [|intros s0 K; clash]. subst l'. exact Q.
  - assert (Hne : vs <> []) by exact (proj1 (q_values _ _ _ Hvs)). destruct vs as [|v2 vs]; [congruence|].
    change (join (bs ", ") (map show_value (v :: v2 :: vs))) with (show_value v ++ (cComma :: cSpace :: join (bs ", ") (map show_value (v2 :: vs)))) in H.
    rewrite <- app_assoc in H. cbn [app] in H. destruct (only_value src Elsewhere l l1 v l2 _ Ho Hv H) as [P Q]; [apply stop_cons; member|].
    destruct (here_tok src Elsewhere Comma [cComma] _ _ Q) as (x & q & -> & Hx & Hq).
    { apply sp_punct; [|member]. unfold name_start, letter. intros [[K|K]|[K|[K _]]]; [lia|lia|lia|discriminate]. }
    apply no_label in Ho'; [|intros s0 K; clash]. injection Ho' as -> ->. cbn [mode_after] in Hq. apply here_space in Hq.
    destruct (IH rest Hq) as [P2 Q2]. split; [constructor; [exact P|exact P2]|exact Q2].
Qed.

Lemma first_semicolon src m c t x q : here src m (c :: t) (x :: q) -> is Semicolon x ->
  c = cSemi \/ ws_char c \/ (c = cSlash /\ exists d t', t = d :: t' /\ (d = cSlash \/ d = cStar)).
Proof.
  intros (pre & V & L) Hx. inversion L as [| |? ? g k u rest ? Hg Hs Hl]; subst. unfold is in Hx. cbn [tk_kind] in Hx. subst k.
  match goal with E : g ++ u ++ rest = _ |- _ => rename E into Et end.
  destruct Hg as [|w g Hw _|b g _ _|b g _ _]; cbn [app] in Et.
  - left. inversion Hs as [| | | | | | | | | | |c' k' rest' Hn Hp|]; subst. cbn [app] in Et. assert (E1 : c' = c) by congruence. subst c'.
    cbn [punctuation In] in Hp. repeat (destruct Hp as [Hp|Hp]; [first [discriminate Hp | injection Hp as <-; reflexivity]|]). destruct Hp.
  - right. left. assert (E1 : w = c) by congruence. subst w. exact Hw.
  - right. right. assert (E1 : c = cSlash) by congruence. split; [exact E1|]. exists cSlash. eexists. split; [|left; reflexivity].
    injection Et as _ E2. rewrite <- E2. reflexivity.
  - right. right. assert (E1 : c = cSlash) by congruence. split; [exact E1|]. exists cStar. eexists. split; [|right; reflexivity].
    injection Et as _ E2. rewrite <- E2. reflexivity.
Qed.
Lemma name_first c t : name_char c -> ~ (c = cSemi \/ ws_char c \/ (c = cSlash /\ exists d t', t = d :: t' /\ (d = cSlash \/ d = cStar))).
Proof. unfold name_char, ws_char, letter, digit. cbn [In]. intros H K. lia. Qed.
Lemma item_first seen l i its l' n : g_items seen l (i :: its) l' n ->
  exists c t, show_item i = c :: t /\ forall t', ~ (c = cSemi \/ ws_char c \/ (c = cSlash /\ exists d t2, t ++ t' = d :: t2 /\ (d = cSlash \/ d = cStar))).
Proof.
  assert (Nm : forall s w, legal_property_name s -> exists c t, s ++ w = c :: t /\ forall t', ~ (c = cSemi \/ ws_char c \/ (c = cSlash /\ exists d t2, t ++ t' = d :: t2 /\ (d = cSlash \/ d = cStar)))).
  { intros s w [[Hn _] Hc]. destruct s as [|c s]; [congruence|]. exists c, (s ++ w). split; [reflexivity|]. intros t'. apply name_first. exact (Forall_inv Hc). }
  assert (Nn : forall n w, legal_node_name n -> exists c t, show_node_name n ++ w = c :: t /\ forall t', ~ (c = cSemi \/ ws_char c \/ (c = cSlash /\ exists d t2, t ++ t' = d :: t2 /\ (d = cSlash \/ d = cStar)))).
  { intros nm w H. destruct (legal_node_chars nm H) as (H1 & (c & r & E & _) & _). unfold show_node_name. rewrite E in *. eexists c, _. split; [reflexivity|].
    intros t'. apply name_first, node_char_name. exact (Forall_inv H1). }
  assert (Nd : forall w, exists c t, bs "/d" ++ w = c :: t /\ forall t', ~ (c = cSemi \/ ws_char c \/ (c = cSlash /\ exists d t2, t ++ t' = d :: t2 /\ (d = cSlash \/ d = cStar)))).
  { intros w. exists cSlash, (bs "d" ++ w). split; [reflexivity|]. intros t' [K|[K|(_ & d & t2 & K & [K2|K2])]].
    - discriminate.
    - unfold ws_char in K. cbn [In] in K. repeat (destruct K as [K|K]; [discriminate K|]). exact K.
    - cbn [bs app] in K. subst d. discriminate.
    - cbn [bs app] in K. subst d. discriminate. }
  intros H. inversion H; subst; cbn [show_item wt_item show_node].
  - apply (Nd (bs "elete-node/ " ++ show_node_name nm)).
  - apply (Nd (bs "elete-property/ " ++ s)).
  - unfold show_property. cbn [pr_values pr_name wt_item]. destruct vs; apply Nm; assumption.
  - unfold show_property. cbn [pr_values pr_name wt_item]. apply Nm. assumption.
  - match goal with K : g_label _ lb _ |- _ => destruct K as [|u s' r Hu Hs] end; [apply Nn; assumption|]. cbn [wt_item]. rewrite <- app_assoc. apply Nm.
    destruct Hs as (Hs1 & Hs2 & _). split; [exact Hs1|]. eapply Forall_impl; [|exact Hs2]. exact label_char_name.
Qed.
Lemma items_no_semicolon src seen l its l' n rest x q : g_items seen l its l' n ->
  here src NameExpected (show_items its ++ bs "};" ++ rest) (x :: q) -> ~ is Semicolon x.
Proof.
  intros Hg H Hx. destruct its as [|i its].
  - change (show_items [] ++ bs "};" ++ rest) with (cRBrace :: cSemi :: rest) in H.
    destruct (here_punct src NameExpected cRBrace CloseBrace _ _ H) as (y & r & E & Hy & _); [member|member|]. injection E as <- <-. clash.
  - destruct (item_first _ _ _ _ _ _ Hg) as (c & t & E & N0). cbn [show_items] in H. rewrite E, <- !app_assoc in H. cbn [app] in H.
    do 4 apply here_space in H. exact (N0 _ (first_semicolon _ _ _ _ _ _ H Hx)).
Qed.
Lemma end_clean l e l' x q : g_end l e l' 0 -> l = x :: q -> l' = q /\ is Semicolon x.
Proof. intros H ->. inversion H; subst. auto. Qed.

Lemma only_body src :
  (forall l pl l' n, g_body l pl l' n -> n = 0%nat -> forall rest, here src NameExpected (cNL :: show_items (pl_items pl) ++ bs "};" ++ rest) l ->
     Forall plain_item (pl_items pl) /\ here src NameExpected rest l')
  /\ (forall seen l its l' n, g_items seen l its l' n -> n = 0%nat -> forall rest, here src NameExpected (show_items its ++ bs "};" ++ rest) l ->
     Forall plain_item its /\ here src NameExpected (bs "};" ++ rest) l').
Proof.
  apply g_body_items_ind.
  - intros l its n l1 o l2 lb c l3 e l4 m Hi IH Ho Hl Hc He E rest H. cbn [pl_items] in *. apply here_nl in H.
    assert (En : n = 0%nat) by lia. assert (Em : m = 0%nat) by lia. subst n m. destruct (IH eq_refl rest H) as [P Q]. split; [exact P|].
    change (bs "};" ++ rest) with (cRBrace :: cSemi :: rest) in Q.
    destruct (here_punct src NameExpected cRBrace CloseBrace _ _ Q) as (x & q & -> & Hx & H1); [member|member|]. cbn [mode_after] in H1.
    destruct (here_punct src NameExpected cSemi Semicolon _ _ H1) as (y & r & -> & Hy & H2); [member|member|]. cbn [mode_after] in H2.
    inversion Ho; subst; [|clash]. inversion Hl; subst; [|clash]. destruct (end_clean _ _ _ _ _ He eq_refl) as [-> _]. exact H2.
  - intros seen l _ rest H. split; [constructor|exact H].
  - intros seen d t s nm l e l1 m its l2 n Hd Ht Hn Hg He Hi IH E rest H. exfalso.
    assert (Em : m = 0%nat) by lia. subst m. cbn [show_items show_item wt_item] in H. rewrite <- !app_assoc in H. cbn [bs app] in H. do 4 apply here_space in H.
    change (here src NameExpected (([cSlash] ++ bs "delete-node" ++ [cSlash]) ++ cSpace :: show_node_name nm ++ cNL :: show_items its ++ bs "};" ++ rest) (d :: t :: l)) in H.
    destruct (here_directive src NameExpected _ DeleteNode _ _ H) as (x & q & Ex & Hx & H1); [member|]. injection Ex as <- <-. apply here_space in H1.
    clear - Hg He Hi H1.
    destruct (here_tok src NameExpected (Ident (show_node_name nm)) (show_node_name nm) _ _ H1) as (y & r & Ey & Hy & H2).
    { destruct (legal_node_chars nm Hg) as (K1 & (c & z & Ez & Kc) & K3). assert (Hs : name_start NameExpected c) by (unfold name_start; tauto).
      assert (Hk : Forall name_char (nn_name nm)) by (eapply Forall_impl; [|exact K1]; exact node_char_name).
      destruct nm as [s0 o]. unfold show_node_name. cbn [nn_name nn_addr] in *. subst s0. destruct o as [a|].
      - destruct (K3 a eq_refl) as [_ Ha]. apply sp_name_at; [exact Hs|exact Hk|eapply Forall_impl; [|exact Ha]; exact node_char_name|].
        intros x0 q0 E. injection E as <- _. unfold name_char, letter, digit. cbn [In]. lia.
      - rewrite app_nil_r. apply sp_name; [exact Hs|exact Hk|]. intros x0 q0 E. injection E as <- _. unfold name_char, letter, digit. cbn [In]. lia. }
    injection Ey as <- <-. cbn [mode_after] in H2. apply here_nl in H2. inversion He as [z q Hz|]; subst.
    exact (items_no_semicolon _ _ _ _ _ _ _ _ _ Hi H2 Hz).
  - intros seen d t s l e l1 m its l2 n Hd Ht Hg He Hi IH E rest H. exfalso.
    assert (Em : m = 0%nat) by lia. subst m. pose proof (here_ok _ _ _ _ H) as Hok. cbn [show_items show_item wt_item] in H. rewrite <- !app_assoc in H. cbn [bs app] in H. do 4 apply here_space in H.
    change (here src NameExpected (([cSlash] ++ bs "delete-property" ++ [cSlash]) ++ cSpace :: s ++ cNL :: show_items its ++ bs "};" ++ rest) (d :: t :: l)) in H.
    destruct (here_directive src NameExpected _ DeleteProperty _ _ H) as (x & q & Ex & Hx & H1); [member|]. injection Ex as <- <-. apply here_space in H1.
    destruct (here_tok src NameExpected (Ident s) s _ _ H1) as (y & r & Ey & Hy & H2).
    { inversion Hok as [|? ? _ Hok2]; subst. destruct (Forall_inv Hok2) as (T1 & _). destruct (T1 _ Ht) as (c & z & -> & Hs).
      apply sp_name; [exact Hs|exact (proj2 Hg)|]. intros x0 q0 E0. injection E0 as <- _. unfold name_char, letter, digit. cbn [In]. lia. }
    injection Ey as <- <-. cbn [mode_after] in H2. apply here_nl in H2. inversion He as [z q Hz|]; subst.
    exact (items_no_semicolon _ _ _ _ _ _ _ _ _ Hi H2 Hz).
  - intros l lb t s q l1 vs l2 e l3 m its l4 n Hl Ht Hn Hq Hv He Hi IH E rest H.
    assert (Em : m = 0%nat) by lia. assert (En : n = 0%nat) by lia. subst m n. pose proof (here_ok _ _ _ _ H) as Hok.
    assert (Hs : exists c r, s = c :: r /\ name_start NameExpected c).
    { destruct (g_label_any _ _ _ Hl) as (p & -> & _). apply suffix_of in Hok. apply (proj1 (Forall_inv Hok)). exact Ht. }
    cbn [show_items show_item] in H. unfold show_property in H. cbn [pr_values pr_name wt_item] in H.
    assert (Hne : vs <> []) by exact (proj1 (q_values _ _ _ Hv)).
    assert (H0 : here src NameExpected (s ++ cSpace :: cEq :: cSpace :: join (bs ", ") (map show_value vs) ++ cSemi :: cNL :: cNL :: show_items its ++ bs "};" ++ rest) l).
    { destruct vs as [|v vs]; [congruence|]. rewrite <- !app_assoc in H. cbn [bs app] in H. do 4 apply here_space in H. exact H. }
    clear H. destruct (here_name src NameExpected s _ _ H0) as (x & r & -> & Hx & H1); [exact Hs|exact (proj2 Hn)|apply name_stop_cons; member|].
    inversion Hl; subst; [|clash]. apply here_space in H1.
    destruct (here_punct src NameExpected cEq Equal _ _ H1) as (y & r & Ey & Hy & H2); [member|member|]. injection Ey as <- <-. cbn [mode_after] in H2. apply here_space in H2.
    destruct (only_values src _ _ _ Hv _ H2) as [P Q].
    destruct (here_punct src Elsewhere cSemi Semicolon _ _ Q) as (z & r & -> & Hz & H3); [member|member|]. cbn [mode_after] in H3. do 2 apply here_nl in H3.
    destruct (end_clean _ _ _ _ _ He eq_refl) as [-> _]. destruct (IH eq_refl rest H3) as [P2 Q2]. split; [constructor; [constructor; exact P|exact P2]|exact Q2].
  - intros l lb t s e l1 its l2 n Hl Ht Hn He Hi IH E rest H. pose proof (here_ok _ _ _ _ H) as Hok.
    assert (Hs : exists c r, s = c :: r /\ name_start NameExpected c).
    { destruct (g_label_any _ _ _ Hl) as (p & -> & _). apply suffix_of in Hok. apply (proj1 (Forall_inv Hok)). exact Ht. }
    cbn [show_items show_item] in H. unfold show_property in H. cbn [pr_values pr_name wt_item] in H. rewrite <- !app_assoc in H. cbn [bs app] in H. do 4 apply here_space in H.
    destruct (here_name src NameExpected s _ _ H) as (x & r & -> & Hx & H1); [exact Hs|exact (proj2 Hn)|apply name_stop_cons; member|].
    inversion Hl; subst; [|clash].
    destruct (here_punct src NameExpected cSemi Semicolon _ _ H1) as (y & r & Ey & Hy & H2); [member|member|]. injection Ey as <- <-. cbn [mode_after] in H2. do 2 apply here_nl in H2.
    destruct (IH eq_refl rest H2) as [P2 Q2]. split; [constructor; [constructor; constructor|exact P2]|exact Q2].
  - intros seen l o l1 lb t s nm b l2 pl l3 m its l4 n Ho Hl Ht Hn Hg Hb Hbd IHb Hi IH E rest H.
    assert (Em : m = 0%nat) by lia. assert (En : n = 0%nat) by lia. subst m n. destruct pl as [sub e]. cbn [pl_items] in *.
    cbn [show_items show_item show_node wt_item] in H. rewrite show_payload_items in H. rewrite <- !app_assoc in H. cbn [bs app nl] in H. do 4 apply here_space in H.
    assert (K : forall q, q = t :: b :: l2 -> here src NameExpected (show_node_name nm ++ cSpace :: cLBrace :: cNL :: show_items sub ++ bs "};" ++ cNL :: show_items its ++ bs "};" ++ rest) q ->
      Forall plain_item sub /\ Forall plain_item its /\ here src NameExpected (bs "};" ++ rest) l4).
    { intros q -> H0. destruct (here_node_name src nm _ _ H0 Hg) as (x & r & Ex & Hx & H1); [apply name_stop_cons; member|]. injection Ex as <- <-. apply here_space in H1.
      destruct (here_punct src NameExpected cLBrace OpenBrace _ _ H1) as (y & r & Ey & Hy & H2); [member|member|]. injection Ey as <- <-. cbn [mode_after] in H2.
      destruct (IHb eq_refl _ H2) as [P Q]. apply here_nl in Q. destruct (IH eq_refl rest Q) as [P2 Q2]. auto. }
    assert (G : o = None -> Forall plain_item sub /\ Forall plain_item its /\ here src NameExpected (bs "};" ++ rest) l4 ->
       Forall plain_item (INode (mkNode lb (mkWT nm t) (mkPayload sub e) o) :: its) /\ here src NameExpected (bs "};" ++ rest) l4).
    { intros -> (P1 & P2 & Q). split; [constructor; [constructor; exact P1|exact P2]|exact Q]. }
    destruct lb as [[s' u]|].
    + inversion Hl as [|? ? ? Hu Hs']; subst. cbn [wt_item] in H. rewrite <- app_assoc in H. cbn [bs app] in H.
      match type of H with here _ _ _ ?q => assert (H0 : here src NameExpected ((s' ++ [cColon]) ++ cSpace :: show_node_name nm ++ cSpace :: cLBrace :: cNL :: show_items sub ++ bs "};" ++ cNL :: show_items its ++ bs "};" ++ rest) q)
        by (rewrite <- app_assoc; exact H) end.
      destruct (here_label src s' _ _ H0 Hs') as (x & r & -> & Hx & H1). apply here_space in H1.
      inversion Ho; subst; [|clash]. apply G; [reflexivity|]. apply (K _ eq_refl). exact H1.
    + inversion Hl; subst. cbn [app] in H. destruct (here_node_name src nm _ _ H Hg) as (x & r & -> & Hx & _); [apply name_stop_cons; member|].
      inversion Ho; subst; [|clash]. apply G; [reflexivity|]. exact (K _ eq_refl H).
Qed.

(** ** Declarations: the display of a memory reservation ends in two semicolons, which no text may *)
Lemma only_primary incl src l p l' n : g_primary incl l p l' n -> n = 0%nat -> ~ c_include p ->
  forall rest, here src NameExpected (show_primary p ++ cNL :: rest) l ->
  (plain_primary p /\ here src NameExpected rest l') \/ (exists x q, l' = x :: q /\ is Semicolon x).
Proof.
  intros Hp. destruct Hp as [t l e l' m Ht He|t l e l' m Ht He|t a sa na b sb nb l e l' m Ht Ha La Na Hb Lb Nb He
        |t f s l Ht Hf'|t f s l Ht Hf' Hn|t b l pl l' m Ht Hb Hbd|t r x b l pl l' m Ht Hr Hb Hbd
        |d t r x l e l' m Hd Ht Hr He|d t r x l e l' m Hd Ht Hr He]; intros E Hc rest H.
  - left. subst m. cbn [plain_primary]. split; [exact I|].
    change (here src NameExpected (([cSlash] ++ bs "dts-v1" ++ [cSlash]) ++ cSemi :: cNL :: rest) (t :: l)) in H.
    destruct (here_directive src NameExpected _ DTSVersionHeader _ _ H) as (x & q & Ex & Hx & H1); [member|]. injection Ex as <- <-.
    destruct (here_punct src NameExpected cSemi Semicolon _ _ H1) as (y & r & -> & Hy & H2); [member|member|]. cbn [mode_after] in H2. apply here_nl in H2.
    destruct (end_clean _ _ _ _ _ He eq_refl) as [-> _]. exact H2.
  - left. subst m. cbn [plain_primary]. split; [exact I|].
    change (here src NameExpected (([cSlash] ++ bs "plugin" ++ [cSlash]) ++ cSemi :: cNL :: rest) (t :: l)) in H.
    destruct (here_directive src NameExpected _ Plugin _ _ H) as (x & q & Ex & Hx & H1); [member|]. injection Ex as <- <-.
    destruct (here_punct src NameExpected cSemi Semicolon _ _ H1) as (y & r & -> & Hy & H2); [member|member|]. cbn [mode_after] in H2. apply here_nl in H2.
    destruct (end_clean _ _ _ _ _ He eq_refl) as [-> _]. exact H2.
  - right. subst m. cbn [show_primary show_any_directive] in H. unfold show_memreserve in H. cbn [wt_item] in H.
    assert (H0 : here src NameExpected (([cSlash] ++ bs "memreserve" ++ [cSlash]) ++ cSpace :: (bs "0x" ++ show_hex na) ++ cSpace :: (bs "0x" ++ show_hex nb) ++ cSemi :: cSemi :: cNL :: rest) (t :: a :: b :: l)).
    { repeat rewrite <- app_assoc in H. repeat rewrite <- app_assoc. exact H. }
    destruct (here_directive src NameExpected _ MemReserve _ _ H0) as (x & q & Ex & Hx & H1); [member|]. injection Ex as <- <-. apply here_space in H1.
    destruct (here_hex src NameExpected na _ _ H1) as (y & q & s & Ey & Hy & H2); [apply stop_cons; member|]. injection Ey as <- <-. apply here_space in H2.
    destruct (here_hex src NameExpected nb _ _ H2) as (y & q & s' & Ey & Hy' & H3); [apply stop_cons; member|]. injection Ey as <- <-.
    destruct (here_punct src NameExpected cSemi Semicolon _ _ H3) as (y & r & -> & Hz & H4); [member|member|]. cbn [mode_after] in H4.
    destruct (here_punct src NameExpected cSemi Semicolon _ _ H4) as (z & r' & -> & Hz' & H5); [member|member|].
    destruct (end_clean _ _ _ _ _ He eq_refl) as [-> _]. exists z, r'. auto.
  - destruct Hc. exact I.
  - left. cbn [show_primary show_any_directive] in H. unfold show_include in H. cbn [wt_item in_file_name] in H.
    assert (H0 : here src NameExpected (([cSlash] ++ bs "include" ++ [cSlash]) ++ cSpace :: (cQuote :: s) ++ cQuote :: cNL :: rest) (t :: f :: l)).
    { repeat rewrite <- app_assoc in H. repeat rewrite <- app_assoc. exact H. }
    destruct (here_directive src NameExpected _ Include _ _ H0) as (x & q & Ex & Hx & H1); [member|]. injection Ex as <- <-. apply here_space in H1.
    destruct (here_string src NameExpected s _ _ _ H1 Hf') as [P Q]. apply here_nl in Q. cbn [plain_primary wt_item in_file_name]. auto.
  - left. subst m. destruct pl as [its e]. cbn [show_primary show_node] in H. rewrite show_payload_items in H. cbn [plain_primary nd_payload].
    assert (H0 : here src NameExpected ([cSlash] ++ cSpace :: cLBrace :: cNL :: show_items its ++ bs "};" ++ cNL :: rest) (t :: b :: l)).
    { repeat rewrite <- app_assoc in H. exact H. }
    destruct (here_tok src NameExpected Slash [cSlash] _ _ H0) as (x & q & Ex & Hx & H1).
    { apply sp_slash. intros x r E. injection E as <- _. unfold letter. lia. }
    injection Ex as <- <-. cbn [mode_after] in H1. apply here_space in H1.
    destruct (here_punct src NameExpected cLBrace OpenBrace _ _ H1) as (y & r & Ey & Hy & H2); [member|member|]. injection Ey as <- <-. cbn [mode_after] in H2.
    destruct (proj1 (only_body src) _ _ _ _ Hbd eq_refl _ H2) as [P Q]. apply here_nl in Q. auto.
  - left. subst m. pose proof (here_ok _ _ _ _ H) as Hok. assert (Hro : ref_ok x) by (eapply ref_text_ok; [exact (Forall_inv Hok)|exact Ht|exact Hr]).
    destruct pl as [its e]. cbn [show_primary] in H. unfold show_ref_node in H. cbn [rn_reference rn_payload wt_item] in H. rewrite show_payload_items in H. cbn [plain_primary rn_payload].
    assert (H0 : here src NameExpected (show_reference x ++ cSpace :: cLBrace :: cNL :: show_items its ++ bs "};" ++ cNL :: rest) (t :: b :: l)).
    { repeat rewrite <- app_assoc in H. exact H. }
    destruct (here_reference src NameExpected x _ _ H0 Hro) as (y & q & k & Ey & Hy & H1); [apply stop_cons; member|].
    injection Ey as <- <-. apply here_space in H1.
    destruct (here_punct src NameExpected cLBrace OpenBrace _ _ H1) as (z & q & Ez & Hz & H2); [member|member|]. injection Ez as <- <-. cbn [mode_after] in H2.
    destruct (proj1 (only_body src) _ _ _ _ Hbd eq_refl _ H2) as [P Q]. apply here_nl in Q. auto.
  - left. subst m. pose proof (here_ok _ _ _ _ H) as Hok. assert (Hro : ref_ok x) by (eapply ref_text_ok; [exact (Forall_inv (Forall_inv_tail Hok))|exact Ht|exact Hr]).
    cbn [show_primary show_any_directive wt_item] in H. cbn [plain_primary]. split; [exact I|].
    assert (H0 : here src NameExpected (([cSlash] ++ bs "delete-node" ++ [cSlash]) ++ cSpace :: show_reference x ++ cSemi :: cNL :: rest) (d :: t :: l)).
    { repeat rewrite <- app_assoc in H. repeat rewrite <- app_assoc. exact H. }
    destruct (here_directive src NameExpected _ DeleteNode _ _ H0) as (y & q & Ey & Hy & H1); [member|]. injection Ey as <- <-. apply here_space in H1.
    destruct (here_reference src NameExpected x _ _ H1 Hro) as (y & q & k & Ey & Hy' & H2); [apply stop_cons; member|]. injection Ey as <- <-.
    destruct (here_punct src NameExpected cSemi Semicolon _ _ H2) as (z & q & -> & Hz & H3); [member|member|]. cbn [mode_after] in H3. apply here_nl in H3.
    destruct (end_clean _ _ _ _ _ He eq_refl) as [-> _]. exact H3.
  - left. subst m. pose proof (here_ok _ _ _ _ H) as Hok. assert (Hro : ref_ok x) by (eapply ref_text_ok; [exact (Forall_inv (Forall_inv_tail Hok))|exact Ht|exact Hr]).
    cbn [show_primary show_any_directive wt_item] in H. cbn [plain_primary]. split; [exact I|].
    assert (H0 : here src NameExpected (([cSlash] ++ bs "omit-if-no-ref" ++ [cSlash]) ++ cSpace :: show_reference x ++ cSemi :: cNL :: rest) (d :: t :: l)).
    { repeat rewrite <- app_assoc in H. repeat rewrite <- app_assoc. exact H. }
    destruct (here_directive src NameExpected _ OmitIfNoRef _ _ H0) as (y & q & Ey & Hy & H1); [member|]. injection Ey as <- <-. apply here_space in H1.
    destruct (here_reference src NameExpected x _ _ H1 Hro) as (y & q & k & Ey & Hy' & H2); [apply stop_cons; member|]. injection Ey as <- <-.
    destruct (here_punct src NameExpected cSemi Semicolon _ _ H2) as (z & q & -> & Hz & H3); [member|member|]. cbn [mode_after] in H3. apply here_nl in H3.
    destruct (end_clean _ _ _ _ _ He eq_refl) as [-> _]. exact H3.
Qed.
Lemma only_file incl src l ps n : g_file incl l ps n -> n = 0%nat -> Forall (fun p => ~ c_include p) ps ->
  here src NameExpected (show_all ps) l -> Forall plain_primary ps.
Proof.
  induction 1 as [|l p l' m ps n Hp Hf IH]; intros E Hc H; [constructor|].
  inversion Hc as [|? ? C1 C2]; subst. unfold show_all in H. cbn [map concat] in H. rewrite <- app_assoc in H.
  destruct (only_primary _ src _ _ _ _ Hp ltac:(lia) C1 _ H) as [[P Q]|(x & q & -> & Hx)].
  - constructor; [exact P|]. apply IH; [lia|exact C2|exact Q].
  - exfalso. inversion Hf as [|? ? ? ? ? ? Hp' _]; subst. inversion Hp'; subst; clash.
Qed.

(** ** What is displayed is UTF-8 *)
Lemma valid_cat a b : valid_utf8 a = true -> valid_utf8 b = true -> valid_utf8 (a ++ b) = true.
Proof. intros H K. rewrite (valid_app a b H). exact K. Qed.
Lemma valid_bytes l : valid_utf8 l = true -> Forall (fun b => b < 256) l.
Proof.
  induction l as [l IH] using len_ind. intros H. destruct l as [|b l]; [constructor|].
  destruct (valid_inv b l H) as [[Hb Hl]|[(b1&r&Hb&->&H2&Hr)|[(b1&b2&r&Hb&->&H2&H3&Hr)|(b1&b2&b3&r&Hb&->&H2&H3&H4&Hr)]]];
    repeat (constructor; [unfold utf8_two, utf8_three, utf8_four, is_cont, in_rng in *; lia|]).
  - apply IH; [cbn; lia|exact Hl].
  - apply IH; [cbn; lia|exact Hr].
  - apply IH; [cbn; lia|exact Hr].
  - apply IH; [cbn; lia|exact Hr].
Qed.
Lemma body_valid b s : string_body b s -> Forall (fun c => c < 256) b -> valid_utf8 s = true.
Proof.
  induction 1 as [|c b s _ _ _ IH|c b s _ IH]; intros H; [reflexivity|..].
  - inversion H; subst. rewrite (proj1 (encode_decode c s ltac:(unfold scalar; lia))). auto.
  - inversion H as [|? ? _ H']; subst. inversion H'; subst. rewrite (proj1 (encode_decode c s ltac:(unfold scalar; lia))). auto.
Qed.
Definition tok_valid (t : token) : Prop := forall s, is (TString s) t -> valid_utf8 s = true.
Lemma lexed_tok_valid src m pre t toks : lexed src m pre t toks -> Forall (fun c => c < 256) t -> Forall tok_valid toks.
Proof.
  induction 1 as [|m pre g u Hg Hu|m pre g k u rest toks Hg Hs Hl IH]; intros HB; [constructor|constructor|].
  apply Forall_app in HB. destruct HB as [_ HB]. apply Forall_app in HB. destruct HB as [H1 H2]. constructor; [|exact (IH H2)].
  intros s E. unfold is in E. cbn [tk_kind] in E. subst k. inversion Hs as [| | | | | | |b s' rest' Hb| | | |c k' rest' Hn Hp|]; subst.
  - apply Forall_app in H1. destruct H1 as [_ H1]. apply Forall_app in H1. exact (body_valid _ _ Hb (proj1 H1)).
  - exfalso. cbn [punctuation In] in Hp. repeat (destruct Hp as [Hp|Hp]; [discriminate Hp|]). destruct Hp.
Qed.
Lemma v_ascii (P : N -> Prop) l : (forall c, P c -> c < 128) -> Forall P l -> valid_utf8 l = true.
Proof. intros H K. apply valid_ascii. eapply Forall_impl; [|exact K]. exact H. Qed.
Lemma v_name s : Forall name_char s -> valid_utf8 s = true.
Proof. apply v_ascii. exact name_char_ascii. Qed.
Lemma v_label s : legal_label s -> valid_utf8 s = true.
Proof. intros (_ & H & _). revert H. apply v_ascii. exact label_char_ascii. Qed.
Lemma v_node n : legal_node_name n -> valid_utf8 (show_node_name n) = true.
Proof.
  intros H. destruct (legal_node_chars n H) as (H1 & _ & H3). unfold show_node_name. apply valid_cat; [exact (v_ascii _ _ node_char_ascii H1)|].
  destruct (nn_addr n) as [a|]; [|reflexivity]. apply valid_cat; [reflexivity|]. apply (v_ascii _ _ node_char_ascii). apply (H3 a). reflexivity.
Qed.
Lemma v_reference r x : ref_text r x -> valid_utf8 (show_reference x) = true.
Proof.
  intros H. destruct H as [s Hs|s p _ _ Hp]; cbn [show_reference]; (apply valid_cat; [reflexivity|]); [exact (v_label s Hs)|]. apply valid_cat; [|reflexivity].
  assert (G : valid_utf8 (show_components p) = true).
  { induction Hp as [|n r Hn _ IH]; [reflexivity|]. cbn [show_components]. apply valid_cat; [reflexivity|]. apply valid_cat; [exact (v_node n Hn)|exact IH]. }
  destruct p; [reflexivity|exact G].
Qed.
Lemma v_hex n : valid_utf8 (show_hex n) = true.
Proof. pose proof (show_hex_numeral n) as H. apply numeral_alnums in H; [|lia]. revert H. apply v_ascii. exact alnum_ascii. Qed.
Lemma v_hex2 n : valid_utf8 (show_hex2 n) = true.
Proof. pose proof (v_hex n) as H. unfold show_hex2. destruct (show_hex n) as [|c [|d r]]; exact H. Qed.
Lemma v_join {A} (f : A -> str) sep l : valid_utf8 sep = true -> Forall (fun x => valid_utf8 (f x) = true) l -> valid_utf8 (join sep (map f l)) = true.
Proof.
  intros H K. induction K as [|x l E _ IH]; [reflexivity|]. destruct l as [|y l]; [exact E|].
  change (join sep (map f (x :: y :: l))) with (f x ++ sep ++ join sep (map f (y :: l))). apply valid_cat; [exact E|]. apply valid_cat; [exact H|exact IH].
Qed.
Lemma v_value l v l' : g_value l v l' -> Forall tok_valid l -> valid_utf8 (show_value v) = true.
Proof.
  destruct 1 as [l t s l' Hb Ht|l t r x l' Hb Ht Hr|l t l1 cs e l' Hb Ht Hc|l t l1 ss e l' Hb Ht Hc]; intros H; cbn [show_value wt_item].
  - destruct (g_bits_any _ _ Hb) as (q & -> & _). apply suffix_of in H. apply valid_cat; [reflexivity|]. apply valid_cat; [exact (Forall_inv H _ Ht)|reflexivity].
  - exact (v_reference _ _ Hr).
  - apply valid_cat; [reflexivity|]. apply valid_cat; [|reflexivity]. apply v_join; [reflexivity|]. clear - Hc.
    induction Hc as [|l l1 c l2 cs t l' Ho Hc _ IH]; constructor; [|exact IH].
    destruct Hc as [t0 s n q Ht Hn Hb|t0 r x q Ht Hr|t0 q u q' Ht Hu Hp]; cbn [show_cell wt_item]; [|exact (v_reference _ _ Hr)|reflexivity].
    apply valid_cat; [reflexivity|apply v_hex].
  - apply valid_cat; [reflexivity|]. apply valid_cat; [|reflexivity]. apply v_join; [reflexivity|]. apply Forall_forall. intros w _.
    induction (wt_item w) as [|b r IH]; [reflexivity|]. cbn [map concat]. apply valid_cat; [apply v_hex2|exact IH].
Qed.
Ltac vcat := repeat first [reflexivity | match goal with |- valid_utf8 (_ ++ _) = true => apply valid_cat end].
Lemma v_values l vs l' : g_values l vs l' -> Forall tok_valid l -> Forall (fun v => valid_utf8 (show_value v) = true) vs /\ Forall tok_valid l'.
Proof.
  induction 1 as [l l1 v l2 l' Ho Hv Ho' He|l l1 v l2 c l3 vs l' Ho Hv Ho' Hc _ IH]; intros H.
  - destruct (opt_label_any _ _ Ho) as (p & -> & _). apply suffix_of in H. pose proof (v_value _ _ _ Hv H) as K. destruct (g_value_any _ _ _ Hv) as (q & -> & _).
    apply suffix_of in H. destruct (opt_label_any _ _ Ho') as (r & -> & _). apply suffix_of in H. auto.
  - destruct (opt_label_any _ _ Ho) as (p & -> & _). apply suffix_of in H. pose proof (v_value _ _ _ Hv H) as K. destruct (g_value_any _ _ _ Hv) as (q & -> & _).
    apply suffix_of in H. destruct (opt_label_any _ _ Ho') as (r & -> & _). apply suffix_of in H. apply Forall_inv_tail in H. destruct (IH H) as [IH1 IH2]. auto.
Qed.
Lemma v_lb l lb l' : g_label l lb l' -> valid_utf8 (match lb with Some x => wt_item x ++ bs ": " | None => [] end) = true.
Proof. destruct 1 as [|t s l Ht Hs]; [reflexivity|]. cbn [wt_item]. apply valid_cat; [exact (v_label s Hs)|reflexivity]. Qed.
Lemma v_end l e l' n : g_end l e l' n -> Forall tok_valid l -> Forall tok_valid l'.
Proof. destruct 1; intros F; [exact (Forall_inv_tail F)|exact F]. Qed.
Lemma v_body :
  (forall l pl l' n, g_body l pl l' n -> Forall tok_valid l -> valid_utf8 (show_payload pl) = true /\ Forall tok_valid l')
  /\ (forall seen l its l' n, g_items seen l its l' n -> Forall tok_valid l -> valid_utf8 (show_items its) = true /\ Forall tok_valid l').
Proof.
  apply g_body_items_ind.
  - intros l its n l1 o l2 lb c l3 e l4 m Hi IH Ho Hl Hc He H. rewrite show_payload_items. destruct (IH H) as [IH1 H1]. split; [vcat; exact IH1|].
    destruct (g_omit_any _ _ _ Ho) as (p & -> & _). apply suffix_of in H1. destruct (g_label_any _ _ _ Hl) as (q & -> & _). apply suffix_of in H1.
    exact (v_end _ _ _ _ He (Forall_inv_tail H1)).
  - intros seen l H. split; [reflexivity|exact H].
  - intros seen d t s nm l e l1 m its l2 n Hd Ht Hn Hg He Hi IH H. cbn [show_items show_item wt_item].
    destruct (IH (v_end _ _ _ _ He (Forall_inv_tail (Forall_inv_tail H)))) as [IH1 H1]. split; [vcat; [exact (v_node nm Hg)|exact IH1]|exact H1].
  - intros seen d t s l e l1 m its l2 n Hd Ht Hg He Hi IH H. cbn [show_items show_item wt_item].
    destruct (IH (v_end _ _ _ _ He (Forall_inv_tail (Forall_inv_tail H)))) as [IH1 H1]. split; [vcat; [exact (v_name s (proj2 Hg))|exact IH1]|exact H1].
  - intros l lb t s q l1 vs l2 e l3 m its l4 n Hl Ht Hn Hq Hv He Hi IH H. cbn [show_items show_item]. unfold show_property. cbn [pr_values pr_name wt_item].
    destruct (g_label_any _ _ _ Hl) as (p & -> & _). apply suffix_of in H. destruct (v_values _ _ _ Hv (Forall_inv_tail (Forall_inv_tail H))) as [V H1].
    destruct (IH (v_end _ _ _ _ He H1)) as [IH1 H2]. split; [|exact H2].
    assert (J : valid_utf8 (join (bs ", ") (map show_value vs)) = true) by (apply v_join; [reflexivity|exact V]).
    destruct vs as [|v vs].
    + vcat; [exact (v_name s (proj2 Hn))|exact IH1].
    + apply valid_cat; [reflexivity|]. apply valid_cat; [|apply valid_cat; [reflexivity|exact IH1]].
      apply valid_cat; [exact (v_name s (proj2 Hn))|]. apply valid_cat; [reflexivity|]. apply valid_cat; [exact J|reflexivity].
  - intros l lb t s e l1 its l2 n Hl Ht Hn He Hi IH H. cbn [show_items show_item]. unfold show_property. cbn [pr_values pr_name wt_item].
    destruct (g_label_any _ _ _ Hl) as (p & -> & _). apply suffix_of in H. destruct (IH (Forall_inv_tail (Forall_inv_tail H))) as [IH1 H2]. split; [|exact H2].
    vcat; [exact (v_name s (proj2 Hn))|exact IH1].
  - intros seen l o l1 lb t s nm b l2 pl l3 m its l4 n Ho Hl Ht Hn Hg Hb Hbd IHb Hi IH H. cbn [show_items show_item show_node wt_item].
    pose proof (v_lb _ _ _ Hl) as K. destruct (g_omit_any _ _ _ Ho) as (p & -> & _). apply suffix_of in H. destruct (g_label_any _ _ _ Hl) as (q & -> & _). apply suffix_of in H.
    destruct (IHb (Forall_inv_tail (Forall_inv_tail H))) as [B H1]. destruct (IH H1) as [IH1 H2]. split; [|exact H2].
    apply valid_cat; [reflexivity|]. apply valid_cat; [|apply valid_cat; [reflexivity|exact IH1]].
    apply valid_cat; [exact K|]. apply valid_cat; [exact (v_node nm Hg)|]. apply valid_cat; [reflexivity|exact B].
Qed.
Lemma v_file incl l ps n : g_file incl l ps n -> Forall tok_valid l -> valid_utf8 (show_all ps) = true.
Proof.
  induction 1 as [|l p l' m ps n Hp _ IH]; intros H; [reflexivity|]. unfold show_all in *. cbn [map concat].
  assert (G : valid_utf8 (show_primary p) = true /\ Forall tok_valid l').
  { clear IH. destruct Hp as [t l e l' m Ht He|t l e l' m Ht He|t a sa na b sb nb l e l' m Ht Ha La Na Hb Lb Nb He
        |t f s l Ht Hf'|t f s l Ht Hf' Hn|t b l pl l' m Ht Hb Hbd|t r x b l pl l' m Ht Hr Hb Hbd
        |d t r x l e l' m Hd Ht Hr He|d t r x l e l' m Hd Ht Hr He]; cbn [show_primary show_any_directive show_node wt_item];
      unfold show_memreserve, show_include, show_ref_node; cbn [in_file_name wt_item rn_reference rn_payload].
    - split; [reflexivity|]. exact (v_end _ _ _ _ He (Forall_inv_tail H)).
    - split; [reflexivity|]. exact (v_end _ _ _ _ He (Forall_inv_tail H)).
    - split; [vcat; apply v_hex|]. exact (v_end _ _ _ _ He (Forall_inv_tail (Forall_inv_tail (Forall_inv_tail H)))).
    - split; [vcat; exact (Forall_inv (Forall_inv_tail H) _ Hf')|exact (Forall_inv_tail (Forall_inv_tail H))].
    - split; [vcat; exact (Forall_inv (Forall_inv_tail H) _ Hf')|exact (Forall_inv_tail (Forall_inv_tail H))].
    - destruct (proj1 v_body _ _ _ _ Hbd (Forall_inv_tail (Forall_inv_tail H))) as [B Q]. split; [vcat; exact B|exact Q].
    - destruct (proj1 v_body _ _ _ _ Hbd (Forall_inv_tail (Forall_inv_tail H))) as [B Q]. split; [apply valid_cat; [exact (v_reference _ _ Hr)|]; apply valid_cat; [reflexivity|exact B]|exact Q].
    - split; [apply valid_cat; [reflexivity|]; apply valid_cat; [exact (v_reference _ _ Hr)|reflexivity]|]. exact (v_end _ _ _ _ He (Forall_inv_tail (Forall_inv_tail H))).
    - split; [apply valid_cat; [reflexivity|]; apply valid_cat; [exact (v_reference _ _ Hr)|reflexivity]|]. exact (v_end _ _ _ _ He (Forall_inv_tail (Forall_inv_tail H))). }
  destruct G as [G1 G2]. apply valid_cat; [|exact (IH G2)]. apply valid_cat; [exact G1|reflexivity].
Qed.

(** ** C22 *)
(** The display of a cleanly parsed file is a text in UTF-8, whatever the file contains. *)
Theorem C22_display_is_text : forall incl text src f,
  valid_utf8 text = true -> parses incl text src f [] -> valid_utf8 (show_file f) = true.
Proof.
  intros incl text src f Hv Hp. destruct (C10_clean_parse_derives _ _ _ _ Hv Hp) as (_ & toks & Hl & Hd).
  exact (v_file _ _ _ _ Hd (lexed_tok_valid _ _ _ _ _ Hl (valid_bytes _ Hv))).
Qed.
Print Assumptions C22_display_is_text.

(** The display of a cleanly parsed file reads back as the same tree exactly if the tree has no memory
    reservation, no inclusion with #, no deletion inside a node, no labelled property, no node inside a node marked
    /omit-if-no-ref/, no byte below 16 in a byte string and no quote, backslash or non-ASCII character in a string. *)
Theorem C22_exact : forall incl text src f src',
  valid_utf8 text = true -> parses incl text src f [] ->
  ((exists f', parses incl (show_file f) src' f' [] /\ map bare_primary (fl_elements f') = map bare_primary (fl_elements f))
   <-> Forall plain_primary (fl_elements f)).
Proof.
  intros incl text src f src' Hv Hp. split; [|exact (C22_plain_partial incl text src f src' Hv Hp)].
  intros (f' & Hp' & E). pose proof (C22_display_is_text _ _ _ _ Hv Hp) as V.
  destruct (C10_clean_parse_derives _ _ _ _ V Hp') as (_ & toks & Hl & Hd).
  assert (S : show_file f = show_all (fl_elements f')).
  { rewrite <- (show_all_bare (fl_elements f')), E, show_all_bare. reflexivity. }
  rewrite S in V, Hl. apply (plain_all_bare _ _ E). apply (only_file _ src' _ _ _ Hd eq_refl).
  - apply Forall_Exists_neg. intros K. pose proof (proj2 (q_file _ _ _ _ Hd) K). pose proof (lexed_quotes _ _ _ _ _ Hl). lia.
  - exists []. split; [exact V|exact Hl].
Qed.
Print Assumptions C22_exact.

(** A file of the second kind: everything but one byte would read back. *)
Example C22_exact_example : exists f,
  parses [] (bs "/dts-v1/; / { l: n { a = <1 &l>, ""x""; b = [12 0f]; }; };") [] f [] /\ ~ Forall plain_primary (fl_elements f).
Proof.
  eexists. split; [eexists; split; vm_compute; reflexivity|]. cbn [fl_elements]. intros H.
  apply Forall_inv_tail, Forall_inv in H. cbn [plain_primary nd_payload pl_items] in H. apply Forall_inv in H. inversion H as [|? ? ? ? K]; subst.
  apply Forall_inv_tail, Forall_inv in K. inversion K as [? ? ? V|]; subst. apply Forall_inv in V.
  cbn [plain_value] in V. apply Forall_inv_tail, Forall_inv in V. cbn [wt_item] in V. apply Forall_inv in V. apply V. reflexivity.
Qed.

(** ** C21 *)
Lemma value_ok_bare v v' : bare_value v' = bare_value v -> value_ok v' -> value_ok v.
Proof.
  assert (B : forall x, value_ok (bare_value x) <-> value_ok x).
  { intros x. destruct x; cbn [bare_value value_ok bare wt_item]; try tauto; rewrite Forall_map; [|cbn [bare wt_item]; tauto].
    split; apply Forall_impl; intros [] H; exact H. }
  intros E H. apply B. rewrite <- E. apply B. exact H.
Qed.
(** A value, whatever it is, can be read back from its display exactly if it is one of [value_ok]: strings of ASCII
    characters without quotes and backslashes, legal references, cells of u32 numbers, legal references and
    expressions, byte strings of non-empty groups of bytes from 16 on. *)
Theorem C21_exact : forall incl src v, valid_utf8 (show_value v) = true ->
  ((exists t p e e' v', bare_value v' = bare_value v
    /\ parses incl (bs "/ { p = " ++ show_value v ++ bs "; };") src
         (mkFile [PRoot (mkNode None (mkWT (mkNN (bs "/") None) t)
                    (mkPayload [IProperty (mkProp None (mkWT (bs "p") p) [v'] e)] e') None)] src) [])
   <-> value_ok v).
Proof.
  intros incl src v V. split; [|apply C21_value_round_trip_partial].
  intros (t & p & e & e' & v' & E & Hp). apply (value_ok_bare v v' E).
  assert (S : show_value v' = show_value v) by (rewrite <- (show_value_bare v'), E; apply show_value_bare).
  assert (V2 : valid_utf8 (bs "/ { p = " ++ show_value v ++ bs "; };") = true) by (apply valid_cat; [reflexivity|]; apply valid_cat; [exact V|reflexivity]).
  destruct (C10_clean_parse_derives _ _ _ _ V2 Hp) as (_ & toks & Hl & Hd). cbn [fl_elements] in Hd.
  assert (H : here src NameExpected ([cSlash] ++ cSpace :: cLBrace :: cSpace :: bs "p" ++ cSpace :: cEq :: cSpace :: show_value v ++ cSemi :: cSpace :: cRBrace :: [cSemi]) toks).
  { exists []. split; [exact V2|exact Hl]. }
  clear V2 Hl Hp. unfold derives in Hd. inversion Hd as [|l p0 l' m ps n Hg Hf E1 E2 E3]; subst.
  assert (m = 0%nat) by lia. subst m. inversion Hg as [| | | | |t0 b l0 pl l'' m Ht Hb Hbd| | |]; subst.
  destruct (here_tok src NameExpected Slash [cSlash] _ _ H) as (x & q & Ex & Hx & H1).
  { apply sp_slash. intros x r E0. injection E0 as <- _. unfold letter. lia. }
  injection Ex as <- <-. cbn [mode_after] in H1. apply here_space in H1.
  destruct (here_punct src NameExpected cLBrace OpenBrace _ _ H1) as (y & r & Ey & Hy & H2); [member|member|]. injection Ey as <- <-. cbn [mode_after] in H2. apply here_space in H2.
  inversion Hbd as [l1 its n1 l2 o l3 lb c l4 e0 l5 m1 Hi Ho Hlb Hc He]; subst.
  assert (n1 = 0%nat) by lia. subst n1. clear - Hi H2 S.
  destruct (here_name src NameExpected (bs "p") _ _ H2) as (x & r & -> & Hx & H3); [apply lower_word; [reflexivity|discriminate]|apply (lower_word NameExpected); [reflexivity|discriminate]|apply name_stop_cons; member|].
  apply here_space in H3.
  destruct (here_punct src NameExpected cEq Equal _ _ H3) as (y & r' & -> & Hy & H4); [member|member|]. cbn [mode_after] in H4. apply here_space in H4.
  inversion Hi; subst.
  match goal with K : g_label _ None _ |- _ => inversion K; subst end.
  match goal with K : g_values _ _ _ |- _ => rename K into Hv end.
  rewrite <- S in H4. destruct (only_values src _ _ _ Hv _ H4) as [P _].
  exact (Forall_inv (values_read_ok _ _ _ Hv (here_ok _ _ _ _ H4) P)).
Qed.
Print Assumptions C21_exact.
