(** Mistakes that the tool tolerates: the grammar with the diagnostics *)
From Verif Require Import Parser LexSpec Utf8 LexerProofs Grammar NameProofs TokParser GrammarComplete.

(** ** Specification *)
(** a diagnostic: all of it, or that a semicolon is missing (the place is not determined by the tokens) *)
Inductive remark := Exactly (d : diag) | NoSemicolon.

Section TolerantGrammar.
  Context (src : fpath) (incl : list fpath).
  Definition misplaced_omit (o : option token) : list remark :=
    match o with
    | Some t => [Exactly (mkDiag IncorrectDirective (tk_span t) src (bs "The /omit-if-no-ref/ directive can only be used on nodes"))]
    | None => []
    end.
  Definition needless_semicolon (t : token) : remark :=
    Exactly (mkDiag ParserError (tk_span t) (tk_source t) (bs "Include directive must not end with a semicolon")).
  (** from the label or the name to the last token *)
  Definition misplaced_property (seen : bool) (lb : option (wtok str)) (t e : token) : list remark :=
    if seen then
      [Exactly (mkDiag PropertyAfterNode
        (mkSpan (tk_start (match lb with Some w => wt_tok w | None => t end)) (tk_end e)) src
        (bs "Properties must be placed before nodes"))]
    else [].

  (** The inside of braces. As in Grammar.v, with what is said about: an omit directive before a property,
      a property after a node, a semicolon after an include directive, missing semicolons. *)
  Inductive h_body : list token -> payload -> list token -> list remark -> Prop :=
  | hbo l its r l1 o l2 lb c l3 e l4 m :
      h_items false l its l1 r -> g_omit l1 o l2 -> g_label l2 lb (c :: l3) -> is CloseBrace c ->
      g_end l3 e l4 m -> h_body l (mkPayload its (last_token e c)) l4 (r ++ repeat NoSemicolon m)
  with h_items : bool -> list token -> list item -> list token -> list remark -> Prop :=
  | hi_nil seen l : h_items seen l [] l []
  | hi_delete_node seen d t s nm l e l1 m its l2 r :
      is (Directive DeleteNode) d -> is (Ident s) t -> node_text s nm -> legal_node_name nm ->
      g_end l e l1 m -> h_items seen l1 its l2 r ->
      h_items seen (d :: t :: l) (IDeletedNode d (mkWT nm t) :: its) l2 (repeat NoSemicolon m ++ r)
  | hi_delete_property seen d t s l e l1 m its l2 r :
      is (Directive DeleteProperty) d -> is (Ident s) t -> legal_property_name s ->
      g_end l e l1 m -> h_items seen l1 its l2 r ->
      h_items seen (d :: t :: l) (IDeletedProperty d (mkWT s t) :: its) l2 (repeat NoSemicolon m ++ r)
  | hi_property seen l o l0 lb t s q l1 vs l2 e l3 m its l4 r :
      g_omit l o l0 -> g_label l0 lb (t :: q :: l1) -> is (Ident s) t -> legal_property_name s -> is Equal q ->
      g_values l1 vs l2 -> g_end l2 e l3 m -> h_items seen l3 its l4 r ->
      h_items seen l (IProperty (mkProp lb (mkWT s t) vs (last_token e q)) :: its) l4
        (repeat NoSemicolon m ++ misplaced_omit o ++ misplaced_property seen lb t (last_token e q) ++ r)
  | hi_empty_property seen l o l0 lb t s e l1 its l2 r :
      g_omit l o l0 -> g_label l0 lb (t :: e :: l1) -> is (Ident s) t -> legal_property_name s -> is Semicolon e ->
      h_items seen l1 its l2 r ->
      h_items seen l (IProperty (mkProp lb (mkWT s t) [] e) :: its) l2
        (misplaced_property seen lb t e ++ misplaced_omit o ++ r)
  | hi_node seen l o l1 lb t s nm b l2 pl l3 rb its l4 r :
      g_omit l o l1 -> g_label l1 lb (t :: b :: l2) -> is (Ident s) t -> node_text s nm ->
      legal_node_name nm -> is OpenBrace b -> h_body l2 pl l3 rb -> h_items true l3 its l4 r ->
      h_items seen l (INode (mkNode lb (mkWT nm t) pl o) :: its) l4 (rb ++ r).

  Inductive h_primary : list token -> primary -> list token -> list remark -> Prop :=
  | hp_root t b l pl l' r : is Slash t -> is OpenBrace b -> h_body l pl l' r ->
      h_primary (t :: b :: l) (PRoot (mkNode None (mkWT (mkNN (bs "/") None) t) pl None)) l' r
  | hp_ref_node t rf x b l pl l' r : is (Ref rf) t -> ref_text rf x -> is OpenBrace b -> h_body l pl l' r ->
      h_primary (t :: b :: l) (PReferencedNode (mkRefNode (mkWT x t) pl)) l' r
  | hp_include t f s e l : is (Directive Include) t -> is (TString s) f -> is Semicolon e ->
      h_primary (t :: f :: e :: l) (PDirective (AInclude (mkInclude t (mkWT s f) incl))) l [needless_semicolon e]
  (** everything else as in the grammar *)
  | hp_other l p l' m : g_primary incl l p l' m -> h_primary l p l' (repeat NoSemicolon m).
  Inductive h_file : list token -> list primary -> list remark -> Prop :=
  | hf_nil : h_file [] [] []
  | hf_cons l p l' r ps r' : h_primary l p l' r -> h_file l' ps r' -> h_file l (p :: ps) (r ++ r').
End TolerantGrammar.
Scheme h_body_mut := Induction for h_body Sort Prop
with h_items_mut := Induction for h_items Sort Prop.
Combined Scheme h_body_items_ind from h_body_mut, h_items_mut.

(** ** Proofs *)
Section Tolerated.
  Context (src : fpath) (incl : list fpath) (rl : position -> list token).
  Definition heeds (r : remark) (d : diag) : Prop := match r with
    | Exactly d' => d = d' /\ dg_kind d' <> Expected /\ dg_kind d' <> UnexpectedEOF
    | NoSemicolon => semi_diag src d
    end.
  (** unless out of fuel *)
  Definition told {A} (x : tres A) (a : A) (l' : list token) (ds : list diag) (r : list remark) : Prop :=
    x = TBad \/ exists new, x = TOk a (mkTS l' (ds ++ new)) /\ Forall2 heeds r new.
  Lemma told_bind {A B} (m : TM A) (k : A -> TM B) l a l' b l'' ds r :
    runs m l a l' -> told (k a (mkTS l' ds)) b l'' ds r -> told (t_bind m k (mkTS l ds)) b l'' ds r.
  Proof. intros Hm Hk. unfold t_bind. destruct (Hm ds) as [->| ->]; [left; reflexivity|exact Hk]. Qed.
  Lemma told_bind_n {A B} (m : TM A) (k : A -> TM B) l a l' b l'' ds r r' :
    told (m (mkTS l ds)) a l' ds r ->
    (forall ds', told (k a (mkTS l' ds')) b l'' ds' r') -> told (t_bind m k (mkTS l ds)) b l'' ds (r ++ r').
  Proof.
    intros Hm Hk. unfold t_bind. destruct Hm as [->|(new & -> & Hf)]; [left; reflexivity|].
    destruct (Hk (ds ++ new)) as [->|(new' & -> & Hf')]; [left; reflexivity|]. right. exists (new ++ new').
    rewrite <- app_assoc. split; [reflexivity|]. apply Forall2_app; assumption.
  Qed.
  Lemma told_runs {A} (m : TM A) l a l' ds : runs m l a l' -> told (m (mkTS l ds)) a l' ds [].
  Proof.
    intros H. destruct (H ds) as [->| ->]; [left; reflexivity|]. right. exists []. rewrite app_nil_r. auto.
  Qed.
  Lemma told_ret {A} (a : A) l ds : told (t_ret a (mkTS l ds)) a l ds [].
  Proof. exact (told_runs _ _ _ _ _ (runs_ret a l)). Qed.
  Lemma told_fine {A} (x : tres A) a l' ds n : fine src x a l' ds n -> told x a l' ds (repeat NoSemicolon n).
  Proof.
    intros [H|(new & H & <- & Hf)]; [left; exact H|]. right. exists new. split; [exact H|].
    clear H. induction Hf; cbn [length repeat]; constructor; auto.
  Qed.
  Lemma told_end l e l' n ds : g_end l e l' n -> told (t_expect_semicolon src rl (mkTS l ds)) e l' ds (repeat NoSemicolon n).
  Proof. intros H. apply told_fine, fine_end. exact H. Qed.
  Lemma told_omit o l ds : told (t_check_omit src o (mkTS l ds)) tt l ds (misplaced_omit src o).
  Proof.
    destruct o as [t|]; [|apply told_ret]. right. eexists. split; [reflexivity|]. constructor; [split; [reflexivity|split; discriminate]|constructor].
  Qed.
  Lemma told_order seen lb t s vs e l ds :
    told (t_check_order src seen (mkProp lb (mkWT s t) vs e) (mkTS l ds)) tt l ds (misplaced_property src seen lb t e).
  Proof.
    destruct seen; [|apply told_ret]. right. eexists. split; [reflexivity|]. constructor; [|constructor].
    split; [destruct lb; reflexivity|split; discriminate].
  Qed.
  Lemma told_prefix f acc nd l o l1 lb t s l2 pl l' r ds :
    g_omit l o l1 -> g_label l1 lb (t :: l2) -> is (Ident s) t ->
    told (rest_of_item src rl f acc nd t o lb (mkTS l2 ds)) pl l' ds r ->
    told (t_payload_loop src rl (S f) acc nd (mkTS l ds)) pl l' ds r.
  Proof.
    intros Ho Hlb Hc Hend. cbn [t_payload_loop]. unfold is in Hc.
    inversion Ho as [l0|d l0 Hd]; subst; inversion Hlb as [l0'|u s' l0' Ht Hs]; subst; unfold is in *;
      (eapply told_bind; [apply runs_expect_next|]).
    - rewrite Hc, !kind_eqb_false by discriminate.
      eapply told_bind; [apply runs_ret|]. cbv beta iota. rewrite Hc. eapply told_bind; [apply runs_ret|]. cbv beta iota. exact Hend.
    - rewrite Ht, !kind_eqb_false by discriminate.
      eapply told_bind; [apply runs_ret|]. cbv beta iota. rewrite Ht. eapply told_bind.
      { eapply runs_bind; [apply runs_check_label; exact Hs|]. eapply runs_bind; [apply runs_expect_next|]. apply runs_ret. }
      cbv beta iota. exact Hend.
    - rewrite Hd, kind_eqb_false, kind_eqb_false, kind_eqb_true by congruence.
      eapply told_bind; [eapply runs_bind; [apply runs_expect_next|]; apply runs_ret|]. cbv beta iota.
      rewrite Hc. eapply told_bind; [apply runs_ret|]. cbv beta iota. exact Hend.
    - rewrite Hd, kind_eqb_false, kind_eqb_false, kind_eqb_true by congruence.
      eapply told_bind; [eapply runs_bind; [apply runs_expect_next|]; apply runs_ret|]. cbv beta iota.
      rewrite Ht. eapply told_bind.
      { eapply runs_bind; [apply runs_check_label; exact Hs|]. eapply runs_bind; [apply runs_expect_next|]. apply runs_ret. }
      cbv beta iota. exact Hend.
  Qed.
  Lemma told_items :
    (forall l pl l' r, h_body src l pl l' r -> forall f ds,
       told (t_payload_loop src rl f [] false (mkTS l ds)) pl l' ds r)
    /\ (forall seen l its l1 r, h_items src seen l its l1 r -> forall f acc ds pl l' r',
       (forall f' seen' ds', told (t_payload_loop src rl f' (acc ++ its) seen' (mkTS l1 ds')) pl l' ds' r') ->
       told (t_payload_loop src rl f acc seen (mkTS l ds)) pl l' ds (r ++ r')).
  Proof.
    apply h_body_items_ind.
    - intros l its r l1 o l2 lb c l3 e l4 m _ IH Ho Hlb Hc He f ds.
      apply IH. intros f' seen' ds'. apply told_fine. eapply payload_close; eassumption.
    - intros seen l f acc ds pl l' r' H. specialize (H f seen ds). rewrite app_nil_r in H. exact H.
    - intros seen d t s nm l e l1 m its l2 r Hd Ht Hn Hl He _ IH f acc ds pl l' r' HK.
      destruct f as [|f]; [left; reflexivity|]. cbn [t_payload_loop].
      eapply told_bind; [apply runs_expect_next|]. unfold is in Hd. rewrite Hd, kind_eqb_true by reflexivity.
      eapply told_bind; [eapply runs_node_name; eassumption|]. rewrite <- app_assoc.
      eapply told_bind_n; [apply told_end; exact He|]. intros ds'. apply IH. intros. rewrite <- app_assoc. apply HK.
    - intros seen d t s l e l1 m its l2 r Hd Ht Hl He _ IH f acc ds pl l' r' HK.
      destruct f as [|f]; [left; reflexivity|]. cbn [t_payload_loop].
      eapply told_bind; [apply runs_expect_next|]. unfold is in Hd. rewrite Hd, kind_eqb_false, kind_eqb_true by congruence.
      eapply told_bind; [eapply runs_property_name; eassumption|]. rewrite <- app_assoc.
      eapply told_bind_n; [apply told_end; exact He|]. intros ds'. apply IH. intros. rewrite <- app_assoc. apply HK.
    - intros seen l o l0 lb t s q l1 vs l2 e l3 m its l4 r Ho Hlb Ht Hs Hq Hvs He _ IH f acc ds pl l' r' HK.
      destruct f as [|f]; [left; reflexivity|].
      eapply told_prefix; [exact Ho|exact Hlb|exact Ht|]. unfold rest_of_item. unfold is in Ht, Hq. rewrite Ht.
      eapply told_bind; [apply runs_peek_expect|]. rewrite Hq. eapply told_bind; [apply runs_skip|].
      eapply told_bind; [apply runs_check_property; exact Hs|].
      eapply told_bind; [apply (runs_values _ _ _ _ Hvs f [])|]. rewrite <- !app_assoc.
      eapply told_bind_n; [apply told_end; exact He|]. intros ds'. cbn [app].
      eapply told_bind_n; [apply told_omit|]. intros ds2.
      eapply told_bind_n; [apply told_order|]. intros ds3. apply IH. intros. rewrite <- app_assoc. apply HK.
    - intros seen l o l0 lb t s e l1 its l2 r Ho Hlb Ht Hs He _ IH f acc ds pl l' r' HK.
      destruct f as [|f]; [left; reflexivity|].
      eapply told_prefix; [exact Ho|exact Hlb|exact Ht|]. unfold rest_of_item. unfold is in Ht, He. rewrite Ht.
      eapply told_bind; [apply runs_peek_expect|]. rewrite He. eapply told_bind; [apply runs_skip|].
      eapply told_bind; [apply runs_check_property; exact Hs|]. rewrite <- !app_assoc.
      eapply told_bind_n; [apply told_order|]. intros ds2.
      eapply told_bind_n; [apply told_omit|]. intros ds3. apply IH. intros. rewrite <- app_assoc. apply HK.
    - intros seen l o l1 lb t s nm b l2 bp l3 rb its l4 r Ho Hlb Ht Hn Hl Hb _ IHb _ IH f acc ds pl l' r' HK.
      destruct f as [|f]; [left; reflexivity|].
      eapply told_prefix; [exact Ho|exact Hlb|exact Ht|]. unfold rest_of_item. pose proof Hb as Hb'. unfold is in Ht, Hb. rewrite Ht.
      eapply told_bind; [apply runs_peek_expect|]. rewrite Hb. apply node_text_iff in Hn. rewrite Hn.
      eapply told_bind; [apply runs_check_node; exact Hl|].
      eapply told_bind; [apply runs_expect; exact Hb'|]. rewrite <- app_assoc.
      eapply told_bind_n; [apply IHb|]. intros ds'. apply IH. intros. rewrite <- app_assoc. apply HK.
  Qed.
  Lemma told_body l pl l' r : h_body src l pl l' r -> forall b f ds, is OpenBrace b ->
    told (t_node_payload src rl f (mkTS (b :: l) ds)) pl l' ds r.
  Proof.
    intros H b f ds Hb. unfold t_node_payload. eapply told_bind; [apply runs_expect; exact Hb|].
    apply (proj1 told_items); exact H.
  Qed.
  Lemma told_primary l p l' r : h_primary src incl l p l' r -> forall f ds,
    told (t_p_primary src incl rl f (mkTS l ds)) p l' ds r.
  Proof.
    intros H f ds. destruct H as [t b l pl l' r Ht Hb Hp|t rf x b l pl l' r Ht Hr Hb Hp|t u s e l Ht Hu He|l p l' m H].
    - unfold t_p_primary. eapply told_bind; [apply runs_expect_next|]. unfold is in Ht. rewrite Ht.
      rewrite <- (app_nil_r r). eapply told_bind_n; [eapply told_body; eassumption|]. intros. apply told_ret.
    - unfold t_p_primary. eapply told_bind; [apply runs_expect_next|]. unfold is in Ht. rewrite Ht.
      eapply told_bind; [apply runs_reference; exact Hr|].
      rewrite <- (app_nil_r r). eapply told_bind_n; [eapply told_body; eassumption|]. intros. apply told_ret.
    - unfold t_p_primary. eapply told_bind; [apply runs_expect_next|]. unfold is in Ht, Hu, He. rewrite Ht.
      eapply told_bind; [apply runs_expect_next|]. rewrite Hu. eapply told_bind; [apply runs_peek|]. cbn [hd_error].
      rewrite He, kind_eqb_true by reflexivity. change [needless_semicolon e] with ([needless_semicolon e] ++ []).
      eapply told_bind_n; [eapply told_bind; [apply runs_expect_next|]; right; eexists; split; [reflexivity|]; constructor; [split; [reflexivity|split; discriminate]|constructor]|].
      intros ds'. eapply told_bind; [apply (runs_ret incl)|]. apply told_ret.
    - apply told_fine, fine_primary. exact H.
  Qed.
  Lemma h_primary_nonempty l p l' r : h_primary src incl l p l' r -> exists t q, l = t :: q.
  Proof. intros []; eauto. eapply primary_nonempty; eassumption. Qed.
  Lemma told_file_loop l ps r : h_file src incl l ps r -> forall f acc ds,
    told (t_file_loop src incl rl f acc (mkTS l ds)) (acc ++ ps) [] ds r.
  Proof.
    induction 1 as [|l p l' r ps r' Hp _ IH]; intros f acc ds; (destruct f as [|f]; [left; reflexivity|]); cbn [t_file_loop].
    - eapply told_bind; [apply runs_peek|]. cbn [hd_error]. rewrite app_nil_r. apply told_ret.
    - destruct (h_primary_nonempty _ _ _ _ Hp) as (t & q & ->). eapply told_bind; [apply runs_peek|]. cbn [hd_error].
      eapply told_bind_n; [apply told_primary; exact Hp|]. intros ds'.
      replace (acc ++ p :: ps) with ((acc ++ [p]) ++ ps) by (rewrite <- app_assoc; reflexivity). apply IH.
  Qed.
  Lemma told_file l ps r f ds : h_file src incl l ps r ->
    told (t_p_file src incl rl f (mkTS l ds)) (mkFile ps src) [] ds r.
  Proof.
    intros H. unfold t_p_file. rewrite <- (app_nil_r r).
    eapply told_bind_n; [apply (told_file_loop _ _ _ H f [])|]. intros. cbn [app].
    eapply told_bind; [apply runs_source|]. apply told_ret.
  Qed.
End Tolerated.
