(** Trees of error-free parses, part 3: twig tags. *)
From Coq Require Import NArith String Bool Arith Lia List.
Import ListNotations.
From Verif Require Import Text Kind Regex Lexer LexerProofs ParserApi GrammarExpr GrammarTags GrammarHtml
  Machine TreeMachine Simulation TreeSpec WpBase Total Schema Shape ShapeStrict ShapeExpr.
Local Notation length := List.length (only parsing).
Local Open Scope list_scope.
Local Open Scope prog_scope.
Local Open Scope cm_scope.

(** * Nodes with known children *)
Definition node1 (k : kind) (P : list tree -> Prop) (t : list item) : Prop :=
  exists c cs, t = [INode c (Node k cs)] /\ P cs.
Definition any_tree (cs : list tree) : Prop := True.
Lemma node1_sem k P t : node1 k P t -> sem (nd [k]) (ck t).
Proof. intros (c & cs & -> & _). apply sem_one. now left. Qed.

Lemma nodes_app a b : nodes (a ++ b) = nodes a ++ nodes b.
Proof. apply filter_app. Qed.
Lemma nodes_leaves l : nodes (map leaf l) = [].
Proof. induction l; auto. Qed.
(** The nodes among items. *)
Definition item_nodes (i : item) : list tree :=
  match i with ITok _ _ _ | ITriv _ => [] | INode _ t | ILock t => nodes [t] end.
Lemma nodes_trees : forall its, nodes (trees its) = flat_map item_nodes its.
Proof.
  induction its as [|i its IH]; [reflexivity|]. unfold trees in *. cbn [flat_map]. rewrite nodes_app, IH. f_equal.
  destruct i; cbn [item_trees item_nodes]; rewrite ?nodes_app, ?nodes_leaves; reflexivity.
Qed.

(** The first name among items. *)
Fixpoint item_name (its : list item) : option text :=
  match its with
  | [] => None
  | ITok _ k ts :: r => if is_name k then Some (concat (map tk_text ts)) else item_name r
  | _ :: r => item_name r
  end.
Lemma first_name_trees shape its : Forall (gooditem shape) its -> first_name (trees its) = item_name its.
Proof.
  assert (L : forall l r, Forall trivia_token l -> first_name (map leaf l ++ r) = first_name r).
  { induction 1 as [|t l H _ IH]; [reflexivity|]. cbn [map app leaf first_name]. unfold is_name.
    unfold trivia_token in H. destruct (tk_kind t); try discriminate; exact IH. }
  induction 1 as [|i its H _ IH]; [reflexivity|]. unfold trees in *. cbn [flat_map].
  destruct i; cbn [gooditem item_trees item_name] in *.
  - rewrite <- app_assoc, L by assumption. cbn [app first_name]. destruct (is_name k); [reflexivity|exact IH].
  - rewrite L by assumption. exact IH.
  - destruct H as [(k & cs & ->) _]. exact IH.
  - destruct H as [(k & cs & ->) _]. exact IH.
Qed.

(** Counting nodes of a kind. *)
Definition is_nd (k : kind) (s : sym) : bool := match s with Nd k' => kind_eqb k' k | Tok _ => false end.
Definition cnt (k : kind) (l : list sym) : nat := length (filter (is_nd k) l).
Lemma cnt_app k a b : cnt k (a ++ b) = cnt k a + cnt k b.
Proof. unfold cnt. now rewrite filter_app, app_length. Qed.
Lemma cnt_content k : forall cs, length (filter (fun t => kind_eqb (tree_kind t) k) (nodes cs)) = cnt k (content cs).
Proof.
  induction cs as [|t cs IH]; [reflexivity|]. unfold content in *. cbn [flat_map]. rewrite cnt_app, <- IH.
  destruct t as [k' s|k' cs']; cbn [symbol nodes filter].
  - destruct (junk k'); reflexivity.
  - unfold cnt. cbn [filter is_nd tree_kind]. destruct (kind_eqb k' k); reflexivity.
Qed.

Section Tags.
  Context (dbg : bool) (T : list token) (N : nat).
  Notation J := (SJ dbg T).
  Notation good := (gooditem (wf dbg)).
  Context (HC : forall m c r, m < N -> J m r [] [] (body c) (Rc c)).

  (** Completing a node, keeping what is known of its children. *)
  Lemma S_complete_P (P : list tree -> Prop) (A : Set) n r segs m saved t k M (g : nat -> prog A) (R : res_spec A) :
    schema k = Some M -> sem M (ck t) -> (Forall good t -> content (trees t) = ck t -> agrees k (trees t) /\ P (trees t)) ->
    (forall cs, P cs -> J n r segs (saved ++ [INode m (Node k cs)]) (g m) R) ->
    J n r ((m, saved) :: segs) t (bind (complete m k) g) R.
  Proof.
    intros Hk HM Ha H. apply J_good. intros G. pose proof (ck_content _ _ G) as Hc.
    eapply S_complete_agree; eauto; [intros; apply Ha; auto|]. apply H. now apply Ha.
  Qed.
  Lemma S_precede_node (A : Set) n r segs c k cs (g : nat -> prog A) (R : res_spec A) :
    (forall m, J n r ((m, []) :: segs) [ILock (Node k cs)] (g m) R) ->
    J n r segs [INode c (Node k cs)] (bind (precede c) g) R.
  Proof. intros H. apply (J_precede _ _ _ _ _ n r segs [] c (Node k cs) []). exact H. Qed.

  (** * Pieces *)
  Lemma st_expression_or n r msg set : n <= N -> J n r [] [] (expression_or msg set) (fun _ _ t => sem expr (ck t)).
  Proof.
    intros HN. unfold expression_or. eapply J_app; [eapply sx_expression; eassumption|]. cbv beta. intros a r1 t _ H.
    opts a H; cbn [is_none when]; [apply J_ret; exact H|]. step.
  Qed.
  Lemma st_name_or n r msg set : J n r [] [] (name_or msg set) (fun _ _ t => sem name (ck t)).
  Proof.
    unfold name_or. eapply J_app; [eapply sx_name|]. cbv beta. intros a r1 t _ H.
    opts a H; cbn [is_none when]; [apply J_ret; exact H|]. step.
  Qed.
  Lemma st_string_or n r msg set : n <= N -> J n r [] [] (string_or msg set) (fun _ _ t => sem string_ (ck t)).
  Proof.
    intros HN. unfold string_or. step. step; [|step].
    eapply J_app; [eapply sx_string; eassumption|]. cbv beta. intros a r1 t _ H. apply J_ret. eapply is1_sem; eassumption.
  Qed.
  Lemma st_opt_bump n r k : junk k = false -> J n r [] [] (opt_bump k) (fun _ _ t => sem (opt (tk [k])) (ck t)).
  Proof.
    intros Hk. unfold opt_bump. step. step.
    - step. apply J_ret. cks. rewrite tok_plain by exact Hk. apply sem_opt. apply sem_tk_mem. cbn. now rewrite kind_eqb_refl.
    - apply J_ret. apply sem_opt_nil.
  Qed.
  Lemma st_include_with n r set : n <= N ->
    J n r [] [] (parse_include_with set) (fun _ _ t => sem (opt (nd [TWIG_INCLUDE_WITH])) (ck t)).
  Proof.
    intros HN. unfold parse_include_with. step. step; [|apply J_ret; apply sem_opt_nil].
    call st_expression_or. steps. apply J_ret. sm.
  Qed.

  Definition child_content (f : pfun) : cm :=
    match f with
    | PFAny => Many (nd elements)
    | PFAttr => Many (nd (HTML_ATTRIBUTE :: twig_statements))
    | PFDouble | PFSingle => Many (AnyTok <|> nd twig_statements)
    | PFRawInner => Many (nd [HTML_RAW_TEXT])
    end.
  Lemma Rc_content f a r t : Rc (CChild f) a r t -> sem (child_content f) (ck t).
  Proof.
    assert (L : forall ks, opt1 ks a t -> sem (Many (nd ks)) (ck t)).
    { intros ks H. destruct a as [c|]; cbn [opt1] in H; [|subst t; apply sem_many_nil].
      apply is1_sem in H. now apply sem_many_one. }
    destruct f; cbn [Rc child_content]; auto.
  Qed.
  Lemma st_call_child n r f : n <= N -> J n r [] [] (call_child f) (fun _ _ t => sem (child_content f) (ck t)).
  Proof.
    intros HN. unfold call_child.
    change (Call (CChild f) (fun _ => Ret tt)) with (bind (Call (CChild f) (fun x => Ret x)) (fun _ => Ret tt)).
    eapply J_call; [intros m Hm; apply HC; lia|]. cbv beta. intros a r1 t1 _ H. apply J_ret. eapply Rc_content; eassumption.
  Qed.
  Lemma many_more m a b : sem (Many m) a -> sem (Many m) b -> sem (Many m) (a ++ b).
  Proof. apply sem_many_app. Qed.
  Lemma child_content_app f a b : sem (child_content f) a -> sem (child_content f) b -> sem (child_content f) (a ++ b).
  Proof. destruct f; apply sem_many_app. Qed.
  Lemma child_content_nil f : sem (child_content f) [].
  Proof. destruct f; apply sem_many_nil. Qed.
  Definition quiet (p : prog bool) : Prop := forall n r, J n r [] [] p (fun _ _ t => t = []).
  Lemma quiet_tag k : quiet (at_twig_tag k).
  Proof. intros n r. apply J_tail. step. now apply J_ret. Qed.
  Lemma quiet_or p q : quiet p -> quiet q -> quiet (a <- p ;; if a then Ret true else q).
  Proof.
    intros Hp Hq n r. eapply J_app; [apply Hp|]. cbv beta. intros a r1 t1 _ ->. destruct a; [now apply J_ret|apply Hq].
  Qed.
  Lemma st_children n r early f : n <= N -> quiet early ->
    J n r [] [] (parse_many early (call_child f)) (fun _ _ t => sem (child_content f) (ck t)).
  Proof.
    intros HN He. unfold parse_many.
    apply J_many with (I := fun _ _ t => sem (child_content f) (ck t)).
    - apply child_content_nil.
    - intros [] r1 t tok ts tr H _ _. cks. exact H.
    - auto.
    - intros m [] r1 t Hm _ HI _ _. apply J_assoc. eapply J_app; [apply He|]. cbv beta. intros a r2 t2 _ ->.
      rewrite app_nil_r. cbn [bind fst snd]. destruct a; [apply J_ret; exact HI|].
      eapply J_app; [apply st_call_child; lia|]. cbv beta. intros [] r3 t3 _ H3. apply J_ret. rewrite ck_app.
      now apply child_content_app.
  Qed.
  Lemma child_content_body f l : sem (child_content f) l ->
    sem (Many (nd elements) <|> Many (nd [HTML_RAW_TEXT]) <|> Many (nd (HTML_ATTRIBUTE :: twig_statements))
         <|> Many (AnyTok <|> nd twig_statements)) l.
  Proof. cbn [sem]. destruct f; cbn [child_content sem]; tauto. Qed.
  Lemma st_body n r early f : n <= N -> quiet early ->
    J n r [] [] (parse_body early f) (fun _ _ t => node1 BODY any_tree t).
  Proof.
    intros HN He. unfold parse_body. step. eapply J_app; [apply st_children; eassumption|]. cbv beta.
    intros _ r1 t1 _ H1. eapply S_complete; [reflexivity|reflexivity|apply (child_content_body f); exact H1|]. intros cs.
    apply J_ret. exists m, cs. split; [reflexivity|exact I].
  Qed.

  (** the ending part *)
  Definition ending_content (kw : kind) (cs : list tree) : Prop :=
    exists a b, mem_kind a TWIG_BLOCK_OPEN_SET = true /\ mem_kind b TWIG_BLOCK_CLOSE_SET = true /\
      content cs = [Tok a; Tok kw; Tok b].
  Lemma mem_plain k ks : mem_kind k ks = true -> forallb (fun k => negb (junk k)) ks = true -> junk k = false.
  Proof. intros H F. rewrite forallb_forall in F. apply mem_kind_in in H. specialize (F _ H). now destruct (junk k). Qed.
  Lemma st_ending n r kw ks r1 r2 r3 k : 
    schema k = Some (simple_tag ks) -> agrees k = (fun _ => True) -> mem_kind kw ks = true -> junk kw = false ->
    J n r [] [] (parse_ending kw r1 r2 r3 k) (fun _ _ t => node1 k (ending_content kw) t).
  Proof.
    intros Hs Ha Hk Hj. unfold parse_ending. do 4 step.
    assert (J1 : junk (tk_kind tok) = false) by (eapply mem_plain; [exact Hk0|reflexivity]).
    assert (J2 : junk (tk_kind tok1) = false) by (eapply mem_plain; [exact Hk2|reflexivity]).
    eapply S_complete_P with (P := ending_content kw); [exact Hs| | |].
    - cks. rewrite !tok_plain by assumption. unfold simple_tag. apply sem_seq; [apply sem_tk_mem; exact Hk0|].
      apply sem_seq; apply sem_tk_mem; assumption.
    - intros _ Hc. rewrite Ha. split; [exact I|]. exists (tk_kind tok), (tk_kind tok1). repeat split; auto.
      rewrite Hc. cks. rewrite !tok_plain by assumption. reflexivity.
    - intros cs H. apply J_ret. exists m, cs. auto.
  Qed.
  (** starting part, body, ending part *)
  Lemma st_wrap n r c k cs early child kw ks r1 r2 r3 e w : n <= N -> quiet early ->
    schema w = Some (wrapped k e) -> agrees w = (fun _ => True) ->
    schema e = Some (simple_tag ks) -> agrees e = (fun _ => True) -> mem_kind kw ks = true -> junk kw = false ->
    J n r [] [INode c (Node k cs)]
      (wrapper_m <- precede c ;; parse_body early child ;; parse_ending kw r1 r2 r3 e ;; complete wrapper_m w)
      (fun a _ t => is1 [w] a t).
  Proof.
    intros HN He Hw Haw Hs Ha Hk Hj. apply S_precede_node. intros m.
    eapply J_app; [apply st_body; eassumption|]. cbv beta. intros _ r4 t4 _ H4. apply node1_sem in H4.
    eapply J_app; [eapply st_ending; eassumption|]. cbv beta. intros _ r5 t5 _ H5. apply node1_sem in H5.
    apply J_tail. eapply S_complete; [exact Hw|exact Haw| |].
    - cks. unfold wrapped. apply sem_seq_cons; [apply sem_one; now left|]. apply sem_seq; assumption.
    - intros cs'. apply J_ret. apply is1_self.
  Qed.
  Ltac wrap := cbn [app]; eapply J_mono; [eapply st_wrap; [eassumption|repeat (apply quiet_or; [apply quiet_tag|]); apply quiet_tag|reflexivity..]|]; auto.

  Notation Tag K p k := (forall n r m tr ko tko, n <= N -> mem_kind ko TWIG_BLOCK_OPEN_SET = true ->
    drop_trivia r = r -> l_at_set K r = true ->
    J n r [(m, [])] [ITok tr ko [tko]] (p m) (fun a _ t => is1 [k] a t)).
  Ltac tag f := intros n r m tr ko tko HN Hko Hn E; unfold f.
  Ltac done := apply J_ret; fin.

  Lemma st_cache child : Tag [TK_CACHE] (fun m => parse_twig_cache m child) TWIG_CACHE.
  Proof.
    tag parse_twig_cache. call st_expression_or. step. step.
    - call st_expression_or. do 3 step. step. step. step.
      + call st_expression_or. steps.  wrap. 
      + steps. wrap.
    - step. step. step.
      + call st_expression_or. steps. wrap.
      + steps. wrap.
  Qed.

  Lemma st_with child : Tag [TK_WITH] (fun m => parse_twig_with m child) TWIG_WITH.
  Proof.
    tag parse_twig_with. call sx_expression. apply opt1_sem in H. call st_opt_bump. steps. wrap.
  Qed.
  Lemma st_verbatim child : Tag [TK_VERBATIM] (fun m => parse_twig_verbatim m child) TWIG_VERBATIM.
  Proof. tag parse_twig_verbatim. steps. wrap. Qed.
  Lemma st_sandbox child : Tag [TK_SANDBOX] (fun m => parse_twig_sandbox m child) TWIG_SANDBOX.
  Proof. tag parse_twig_sandbox. steps. wrap. Qed.
  Lemma st_trans child : Tag [TK_TRANS] (fun m => parse_twig_trans m child) TWIG_TRANS.
  Proof. tag parse_twig_trans. steps. wrap. Qed.
  Lemma st_flush : Tag [TK_FLUSH] parse_twig_flush TWIG_FLUSH.
  Proof. tag parse_twig_flush. steps. done. Qed.
  Lemma st_do : Tag [TK_DO] parse_twig_do TWIG_DO.
  Proof. tag parse_twig_do. call st_expression_or. steps. done. Qed.
  Lemma st_deprecated : Tag [TK_DEPRECATED] parse_twig_deprecated TWIG_DEPRECATED.
  Proof. tag parse_twig_deprecated. call st_string_or. steps. done. Qed.
  Lemma st_autoescape child : Tag [TK_AUTOESCAPE] (fun m => parse_twig_autoescape m child) TWIG_AUTOESCAPE.
  Proof.
    tag parse_twig_autoescape. do 4 step.
    - call sx_string. apply is1_sem in H. steps. wrap.
    - steps.
      + wrap.
      + wrap.
  Qed.
  Lemma st_import : Tag [TK_IMPORT; TK_SW_IMPORT] parse_twig_import TWIG_IMPORT.
  Proof. tag parse_twig_import. call st_expression_or. call st_name_or. steps. done. Qed.
  Lemma st_extends : Tag [TK_EXTENDS] parse_twig_extends TWIG_EXTENDS.
  Proof. tag parse_twig_extends. call st_expression_or. steps. done. Qed.
  Lemma st_include : Tag [TK_INCLUDE] parse_twig_include TWIG_INCLUDE.
  Proof.
    tag parse_twig_include. call st_expression_or. call st_opt_bump. call st_include_with. call st_opt_bump. steps. done.
  Qed.
  Lemma st_for child : Tag [TK_FOR] (fun m => parse_twig_for m child) TWIG_FOR.
  Proof.
    assert (L : forall n r c cs, n <= N -> J n r [] [INode c (Node TWIG_FOR_BLOCK cs)]
      (wrapper_m <- precede c ;;
       parse_body (a <- at_twig_tag TK_ENDFOR ;; if a then Ret true else at_twig_tag TK_ELSE) child ;;
       (If at_twig_tag TK_ELSE Then
          else_m <- start ;;
          bump ;; bump ;;
          expect_any TWIG_BLOCK_CLOSE_SET ([TK_ENDFOR] ++ close_slash) ;;
          complete else_m TWIG_FOR_ELSE_BLOCK ;;
          parse_body (at_twig_tag TK_ENDFOR) child
        Else Ret tt) ;;
       parse_ending TK_ENDFOR ([TK_ENDFOR] ++ close_slash) close_slash [TK_LESS_THAN_SLASH] TWIG_ENDFOR_BLOCK ;;
       complete wrapper_m TWIG_FOR) (fun a _ t => is1 [TWIG_FOR] a t)).
    { intros n r c cs HN. apply S_precede_node. intros m.
      eapply J_app; [apply st_body; [eassumption|apply quiet_or; apply quiet_tag]|]. cbv beta. intros _ r1 t1 _ H1.
      apply node1_sem in H1. step. step.
      - destruct r0 as [|t0 r0]; [discriminate|]. apply twig_tag_cons in Heqb as (Hm & u & us & Hu & Ku). do 3 step.
        rewrite Hu in Hd. injection Hd as <- <-. rewrite Ku. steps.
        eapply J_app; [apply st_body; [eassumption|apply quiet_tag]|]. cbv beta. intros _ r4 t4 _ H4. apply node1_sem in H4.
        eapply J_app; [eapply st_ending; reflexivity|]. cbv beta. intros _ r5 t5 _ H5. apply node1_sem in H5.
        steps. done.
      - steps. eapply J_app; [eapply st_ending; reflexivity|]. cbv beta. intros _ r5 t5 _ H5. apply node1_sem in H5.
        steps. done. }
    tag parse_twig_for. call st_name_or. step. step.
    - call st_name_or. call st_expression_or. steps. apply L; lia.
    - call st_expression_or. steps. apply L; lia.
  Qed.
  Lemma st_branches n r child : n <= N ->
    J n r [] [] (parse_if_branches child)
      (fun _ _ t => sem (nd [BODY] >> Many (nd [TWIG_ELSE_IF_BLOCK; TWIG_ELSE_BLOCK] >> nd [BODY])) (ck t)).
  Proof.
    intros HN. unfold parse_if_branches.
    apply J_iter with (I := fun _ _ t => sem (Many (nd [BODY] >> nd [TWIG_ELSE_IF_BLOCK; TWIG_ELSE_BLOCK])) (ck t));
      [apply sem_many_nil|].
    assert (L : forall l b, sem (Many (nd [BODY] >> nd [TWIG_ELSE_IF_BLOCK; TWIG_ELSE_BLOCK])) l -> sem (nd [BODY]) b ->
      sem (nd [BODY] >> Many (nd [TWIG_ELSE_IF_BLOCK; TWIG_ELSE_BLOCK] >> nd [BODY])) (l ++ b)).
    { intros l b Hl. revert b. induction Hl as [|x y (u & v & -> & Hu & Hv) _ IH]; intros b Hb.
      - apply sem_seq_last; [exact Hb|apply sem_many_nil].
      - rewrite <- !app_assoc. apply sem_seq; [exact Hu|]. destruct (IH b Hb) as (b1 & z & E & Hb1 & Hz). rewrite E.
        rewrite app_assoc. constructor; [|exact Hz]. now apply sem_seq. }
    intros m [] r1 t Hm _ HI.
    eapply J_app; [apply st_body; [lia|repeat (apply quiet_or; [apply quiet_tag|]); apply quiet_tag]|].
    cbv beta. intros _ r2 t1 _ H1. apply node1_sem in H1.
    step. step; [apply J_ret; rewrite ck_app; now apply L|]. step. step.
    - destruct r0 as [|t0 r0]; [discriminate|]. apply twig_tag_cons in Heqb0 as (Hm0 & u & us & Hu & Ku). do 3 step.
      rewrite Hu in Hd. injection Hd as <- <-. rewrite Ku. call st_expression_or. steps. apply J_ret.
      rewrite !ck_app, <- app_assoc. apply sem_many_app; [exact HI|]. apply sem_many_one. apply sem_seq; [exact H1|].
      sm.
    - step. step.
      + destruct r0 as [|t0 r0]; [discriminate|]. apply twig_tag_cons in Heqb1 as (Hm0 & u & us & Hu & Ku). do 3 step.
        rewrite Hu in Hd. injection Hd as <- <-. rewrite Ku. steps. apply J_ret.
        rewrite !ck_app, <- app_assoc. apply sem_many_app; [exact HI|]. apply sem_many_one. apply sem_seq; [exact H1|].
        sm.
      + apply J_ret. rewrite ck_app. now apply L.
  Qed.
  Lemma st_if child : Tag [TK_IF] (fun m => parse_twig_if m child) TWIG_IF.
  Proof.
    tag parse_twig_if. call st_expression_or. steps. apply S_precede_node. intros m1.
    eapply J_app; [apply st_branches; eassumption|]. cbv beta. intros _ r1 t1 _ H1.
    eapply J_app; [eapply st_ending; reflexivity|]. cbv beta. intros _ r5 t5 _ H5. apply node1_sem in H5.
    steps; [|done]. cks. apply sem_seq_cons; [apply sem_one; now left|].
    destruct H1 as (x & y & -> & Hx & Hy). rewrite <- app_assoc. apply sem_seq; [exact Hx|]. now apply sem_seq.
  Qed.
  Lemma st_component child : Tag [TK_COMPONENT] (fun m => parse_twig_component m child) TWIG_COMPONENT.
  Proof.
    tag parse_twig_component. call sx_name. opts a H; cbn [is_none]; [|steps]. cbn [when]. do 3 step.
    - do 3 step; [|step]. call sx_hash. apply is1_sem in H0. steps. wrap.
    - steps. wrap.
  Qed.
  Lemma st_thumbnails : Tag [TK_SW_THUMBNAILS] parse_twig_sw_thumbnails SHOPWARE_THUMBNAILS.
  Proof.
    tag parse_twig_sw_thumbnails. call st_expression_or. step. step.
    - call st_expression_or. steps. done.
    - steps. done.
  Qed.
  Lemma st_icon : Tag [TK_SW_ICON] parse_twig_sw_icon SHOPWARE_ICON.
  Proof.
    tag parse_twig_sw_icon. call st_expression_or. step. step.
    - call st_expression_or. steps. done.
    - steps. done.
  Qed.
  Lemma st_return : Tag [TK_RETURN] parse_twig_sw_return SHOPWARE_RETURN.
  Proof. tag parse_twig_sw_return. call sx_expression. apply opt1_sem in H. steps. done. Qed.
  Lemma st_feature child : Tag [TK_SW_SILENT_FEATURE_CALL] (fun m => parse_twig_sw_silent_feature_call m child) SHOPWARE_SILENT_FEATURE_CALL.
  Proof. tag parse_twig_sw_silent_feature_call. call st_string_or. steps. wrap. Qed.
  Lemma st_sw_extends : Tag [TK_SW_EXTENDS] parse_twig_sw_extends SHOPWARE_TWIG_SW_EXTENDS.
  Proof. tag parse_twig_sw_extends. call st_string_or. steps. done. Qed.
  Lemma st_sw_include : Tag [TK_SW_INCLUDE] parse_twig_sw_include SHOPWARE_TWIG_SW_INCLUDE.
  Proof.
    tag parse_twig_sw_include. call st_expression_or. call st_opt_bump. call st_include_with. call st_opt_bump. steps. done.
  Qed.

  Lemma st_apply child : Tag [TK_APPLY] (fun m => parse_twig_apply m child) TWIG_APPLY.
  Proof.
    assert (L : forall n r c t1 rest, n <= N -> is1 [TWIG_LITERAL_NAME] c t1 ->
      sem (opt (nd [TWIG_ARGUMENTS])) (ck rest) ->
      J n r [] (t1 ++ rest)
        (parse_many_st (fun node => b <- at_twig_block_close ;; Ret (b, node))
           (fun node => If at_ TK_SINGLE_PIPE Then parse_twig_filter node Else Ret node) c)
        (fun _ _ t => sem (name <|> (name >> nd [TWIG_ARGUMENTS]) <|> nd [TWIG_FILTER]) (ck t))).
    { intros n r c t1 rest HN H1 Hr.
      apply J_many with (I := fun c _ t => (exists t1 rest, t = t1 ++ rest /\ is1 [TWIG_LITERAL_NAME] c t1 /\
        sem (opt (nd [TWIG_ARGUMENTS])) (ck rest)) \/ is1 [TWIG_FILTER] c t).
      - left. eauto.
      - intros c1 r1 t tok ts tr [(u & v & -> & Hu & Hv)|H] _ _.
        + left. exists u, (v ++ [ITok tr TK_UNKNOWN [tok]]). rewrite app_assoc. repeat split; auto. cks. exact Hv.
        + right. apply is1_junk; [exact H|reflexivity].
      - intros c1 r1 r2 t [(u & v & -> & Hu & Hv)|H].
        + apply is1_sem in Hu. rewrite ck_app. destruct Hv as [Hv|Hv].
          * cbn [sem] in Hv. rewrite Hv, app_nil_r. left. exact Hu.
          * right. left. now apply sem_seq.
        + right. right. eapply is1_sem; eassumption.
      - intros m c1 r1 t Hm _ HI _ _. pose proof (drop_idem r1) as Hn. revert HI Hn. generalize (drop_trivia r1).
        intros r2 HI Hn. step. step. step.
        { apply J_ret. destruct HI as [(u & v & -> & Hu & Hv)|H].
          + apply is1_sem in Hu. rewrite ck_app. destruct Hv as [Hv|Hv].
            * cbn [sem] in Hv. rewrite Hv, app_nil_r. left. exact Hu.
            * right. left. now apply sem_seq.
          + right. right. eapply is1_sem; eassumption. }
        step. step; [|cbn [bind]; apply J_ret; exact HI].
        destruct HI as [(u & v & -> & Hu & Hv)|H].
        + eapply J_bind; [eapply sx_filter_of; eauto; [lia|]|].
          * intros l Hl. destruct Hv as [Hv|Hv].
            -- cbn [sem] in Hv. rewrite Hv, app_nil_r. left. eapply sem_nd_incl; [exact Hl|reflexivity].
            -- right. apply sem_seq; assumption.
          * cbv beta. intros a r3 t3 _ H3. apply J_ret. right. exact H3.
        + rewrite <- (app_nil_r t). eapply J_bind; [eapply (sx_filter_of dbg T N HC m r2 t []); eauto; [lia|]|].
          * intros l Hl. rewrite app_nil_r. left. eapply sem_nd_incl; [exact Hl|reflexivity].
          * cbv beta. intros a r3 t3 _ H3. apply J_ret. right. exact H3. }
    tag parse_twig_apply. call sx_name. destruct a as [c|]; [|steps]. cbn [opt1] in H. cbn [app]. step. step.
    - call sx_arguments. steps. cbn [app].
      eapply (S_under dbg T _ _ n _ _ [ITok tr ko [tko]; ITok tr0 (tk_kind tok) [tok]]).
      { apply L; [lia|exact H|]. apply sem_opt. sm. }
      cbv beta. intros a1 r1 t1 _ H1. steps. wrap.
    - step. norm. eapply (S_under dbg T _ _ n _ _ [ITok tr ko [tko]; ITok tr0 (tk_kind tok) [tok]] t).
      { rewrite <- (app_nil_r t). apply L; [lia|exact H|]. apply sem_opt_nil. }
      cbv beta. intros a1 r1 t1 _ H1. steps. wrap.
  Qed.

  (** * Lists in which every thing but the last is followed by a comma *)
  Lemma S_sep (X : Set) n r (x : X) close child k (K : X -> list sym -> Prop) :
    K x [] ->
    (forall tok ts, tk_kind tok = TK_UNKNOWN -> close (tok :: ts) = false) ->
    (forall m r x l, m <= n -> K x l -> J m r [] [] (child x) (fun x' r' t => K x' (l ++ ck t) /\
       (sem (nd [k] >> comma) (ck t) \/ (sem (nd [k]) (ck t) /\ close (drop_trivia r') = true)))) ->
    J n r [] [] (parse_many_st (fun x => b <- look close ;; Ret (b, x)) child x)
      (fun x' _ t => K x' (ck t) /\ sem (Many (nd [k] >> comma) >> opt (nd [k])) (ck t)).
  Proof.
    intros K0 Hc Hp. apply J_many with (I := fun x r t => K x (ck t) /\
      (sem (Many (nd [k] >> comma)) (ck t) \/
       (sem (Many (nd [k] >> comma) >> nd [k]) (ck t) /\ close (drop_trivia r) = true))).
    - split; [exact K0|]. left. apply sem_many_nil.
    - intros x1 r1 t1 tok ts tr [HK H] Hd Hk. cks. split; [exact HK|]. destruct H as [H|[H E]]; [now left|].
      rewrite Hd, (Hc tok ts Hk) in E. discriminate.
    - intros x1 r1 r2 t1 [HK H]. split; [exact HK|]. destruct H as [H|[H _]].
      + apply sem_seq_last; [exact H|apply sem_opt_nil].
      + destruct H as (a & b & E & Ha & Hb). rewrite E. apply sem_seq; [exact Ha|]. now apply sem_opt.
    - intros m x1 r1 t1 Hm _ [HK H] _ _. pose proof (drop_idem r1) as Hn. revert H Hn. generalize (drop_trivia r1).
      intros r2 H Hn. step. step. step.
      + apply J_ret. split; [exact HK|]. destruct H as [H|[H _]].
        * apply sem_seq_last; [exact H|apply sem_opt_nil].
        * destruct H as (a & b & E & Ha & Hb). rewrite E. apply sem_seq; [exact Ha|]. now apply sem_opt.
      + destruct H as [H|[_ H]]; [|congruence]. eapply J_app; [apply (Hp m r2 x1 (ck t1)); auto|]. cbv beta.
        intros x2 r3 t3 _ [HK3 H3]. apply J_ret. rewrite ck_app. split; [exact HK3|]. destruct H3 as [H3|[H3 E]].
        * left. apply sem_many_app; [exact H|]. now apply sem_many_one.
        * right. split; [|exact E]. now apply sem_seq.
  Qed.
  Lemma sep_list1 k l : sem (Many (nd [k] >> comma) >> opt (nd [k])) l -> l <> [] -> sem (list1 (nd [k])) l.
  Proof.
    intros (x & y & -> & Hx & [Hy|Hy]) Hl.
    - cbn [sem] in Hy. subst y. rewrite app_nil_r in *. right.
      assert (L : star (sem (nd [k] >> comma)) x -> x <> [] ->
        exists a b, x = a ++ b /\ star (sem (nd [k] >> comma)) a /\ sem (nd [k] >> comma) b).
      { clear. induction 1 as [|x y Hx Hy IH]; [congruence|]. intros _. destruct y as [|s y].
        - exists [], x. rewrite app_nil_r. split; [reflexivity|]. split; [constructor|exact Hx].
        - destruct IH as (a & b & E & Ha & Hb); [discriminate|]. exists (x ++ a), b. rewrite E, app_assoc. split; [reflexivity|].
          split; [now constructor|exact Hb]. }
      destruct (L Hx Hl) as (a & b & -> & Ha & Hb). now exists a, b.
    - left. now exists x, y.
  Qed.

  Lemma st_override n r desc : 
    J n r [] [] (parse_name_as_name_override desc) (fun _ _ t => sem (nd [TWIG_OVERRIDE]) (ck t)).
  Proof.
    unfold parse_name_as_name_override. call st_name_or. step. step.
    - call st_name_or. steps. apply J_ret. sm.
    - steps. apply J_ret. sm.
  Qed.
  Lemma nd_not_nil k l : sem (nd [k]) l -> cnt k l = 1.
  Proof. intros (s & -> & [<-|[]]). unfold cnt. cbn [filter is_nd]. now rewrite kind_eqb_refl. Qed.
  Lemma st_overrides n r desc : n <= N ->
    J n r [] [] (parse_overrides desc) (fun c _ t => c = cnt TWIG_OVERRIDE (ck t) /\
      sem (Many (nd [TWIG_OVERRIDE] >> comma) >> opt (nd [TWIG_OVERRIDE])) (ck t)).
  Proof.
    intros HN. unfold parse_overrides.
    apply (S_sep nat n r 0 (l_at_set TWIG_BLOCK_CLOSE_SET) _ TWIG_OVERRIDE (fun c l => c = cnt TWIG_OVERRIDE l)); [reflexivity| |].
    - intros tok ts H. cbn [l_at_set]. rewrite H. reflexivity.
    - intros m r1 x l Hm ->. call st_override. pose proof (nd_not_nil _ _ H) as Hc. steps.
      + apply J_ret. cks. rewrite !cnt_app, Hc. split; [cbn; lia|]. left. now apply sem_seq; [|apply sem_tk_mem].
      + apply J_ret. cks. rewrite !cnt_app, Hc. split; [lia|]. right. split; [exact H|]. rewrite Hn. assumption.
  Qed.
  Lemma st_from : Tag [TK_FROM; TK_SW_FROM] parse_twig_from TWIG_FROM.
  Proof.
    tag parse_twig_from. call st_expression_or. step. step; [|steps]. step. step. norm.
    eapply J_app; [apply st_overrides; lia|]. cbv beta. intros c r1 t1 _ [-> H1].
    destruct (Nat.ltb_spec (cnt TWIG_OVERRIDE (ck t1)) 1) as [Hc|Hc]; cbn [when]; [step|]. apply sep_list1 in H1.
    - steps. done.
    - intros E0. rewrite E0 in Hc. cbn in Hc. lia.
  Qed.
  Lemma st_use : Tag [TK_USE; TK_SW_USE] parse_twig_use TWIG_USE.
  Proof.
    tag parse_twig_use. call st_string_or. step. step.
    - step. norm. eapply J_app; [apply st_overrides; lia|]. cbv beta. intros c r1 t1 _ [-> H1].
      destruct (Nat.ltb_spec (cnt TWIG_OVERRIDE (ck t1)) 1) as [Hc|Hc]; cbn [when]; [step|]. apply sep_list1 in H1.
      + steps. done.
      + intros E0. rewrite E0 in Hc. cbn in Hc. lia.
    - steps. done.
  Qed.
  Lemma st_props : Tag [TK_PROPS] parse_twig_props TWIG_PROPS.
  Proof.
    tag parse_twig_props. steps. eapply J_app.
    { unfold parse_many. apply (S_sep unit n _ tt (l_at_set (close3 ++ [TK_COMMA; TK_EQUAL; TK_LESS_THAN_SLASH])) _
        TWIG_PROP_DECLARATION (fun _ _ => True)); [exact I| |].
      - intros tok1 ts1 H. cbn [l_at_set]. rewrite H. reflexivity.
      - intros m1 r1 [] l Hm _. call sx_name. opts a H; cbn [is_none]; [|steps]. cbn [when]. do 3 step.
        + call sx_expression. opts a H0; cbn [is_none]; [|steps]. cbn [when]. do 4 step.
          * step. apply J_ret. split; [exact I|]. left. sm.
          * step. step; [|apply J_tail; step]. apply J_ret. split; [exact I|]. right. split; [sm|]. rewrite Hn.
            destruct r2 as [|u r2]; [discriminate|]. cbn [l_at_set] in *. apply mem_kind_in, in_or_app. left. now apply mem_kind_in.
        + step. step. step.  step.
          * step. apply J_ret. split; [exact I|]. left. sm.
          * step. step; [|apply J_tail; step]. apply J_ret. split; [exact I|]. right. split; [sm|]. rewrite Hn.
            destruct r0 as [|u r0]; [discriminate|]. cbn [l_at_set] in *. apply mem_kind_in, in_or_app. left. now apply mem_kind_in. }
    cbv beta. intros _ r1 t1 _ [_ H1]. steps. done.
  Qed.

  (** * Tags whose parts belong together *)
  Lemma open_no_name k : mem_kind k TWIG_BLOCK_OPEN_SET = true -> is_name k = false.
  Proof. destruct k; try discriminate; reflexivity. Qed.
  Lemma close_no_name k : mem_kind k TWIG_BLOCK_CLOSE_SET = true -> is_name k = false.
  Proof. destruct k; try discriminate; reflexivity. Qed.

  Lemma st_end_name n r what nm :
    J n r [] [] (parse_end_name what (Some nm))
      (fun _ _ t => t = [] \/ exists tr tok, t = [ITok tr TK_WORD [tok]] /\ tk_text tok = nm).
  Proof.
    unfold parse_end_name. step. step; [|apply J_ret; now left]. step.
    destruct (text_eqb (tk_text tok) nm) eqn:Et; [|step].
    apply J_ret. right. apply text_eqb_eq in Et. exists tr, tok. auto.
  Qed.
  Lemma end_name_sem t nm : t = [] \/ (exists tr tok, t = [ITok tr TK_WORD [tok]] /\ tk_text tok = nm) ->
    sem (opt (tk [TK_WORD])) (ck t).
  Proof. intros [->|(tr & tok & -> & _)]; [apply sem_opt_nil|]. apply sem_opt. now apply sem_tk_mem. Qed.

  Definition name_or_none (nm : text) (cs : list tree) : Prop := first_name cs = None \/ first_name cs = Some nm.
  (** ending part with an optional name *)
  Lemma st_named_ending (A : Set) n r segs t kw r1 r2 r3 k what nm (g : nat -> prog A) (R : res_spec A) :
    schema k = Some (tag [kw] (opt (tk [TK_WORD]))) -> agrees k = (fun _ => True) -> junk kw = false -> is_name kw = false ->
    (forall r c cs, name_or_none nm cs -> J n r segs (t ++ [INode c (Node k cs)]) (g c) R) ->
    J n r segs t
      (end_block_m <- start ;; expect_any TWIG_BLOCK_OPEN_SET r1 ;; expect kw r2 ;; parse_end_name what (Some nm) ;;
       expect_any TWIG_BLOCK_CLOSE_SET r3 ;; x <- complete end_block_m k ;; g x) R.
  Proof.
    intros Hs Ha Hj Hk Hg. do 3 step. norm. eapply J_app; [apply st_end_name|]. cbv beta. intros _ r4 t4 _ H4. step.
    eapply S_complete_P with (P := name_or_none nm); [exact Hs| | |].
    - apply end_name_sem in H4. cks. rewrite (tok_plain kw) by assumption. cbn [app]. unfold tag.
      apply sem_seq; [apply tok_in; [eassumption|reflexivity]|].
      apply sem_seq_cons; [apply sem_tk_mem; cbn; now rewrite kind_eqb_refl|]. apply sem_seq; [exact H4|].
      apply tok_in; [eassumption|reflexivity].
    - intros G _. rewrite Ha. split; [exact I|]. unfold name_or_none. rewrite (first_name_trees _ _ G).
      cbn [app item_name]. rewrite (open_no_name _ Hk0), Hk. destruct H4 as [->|(tr' & tok' & -> & <-)].
      + left. cbn [app item_name]. now rewrite (close_no_name _ Hk2).
      + right. cbn [app item_name]. change (is_name TK_WORD) with true. cbn [map concat]. now rewrite app_nil_r.
    - intros cs H. apply Hg. exact H.
  Qed.

  Lemma st_macro child : Tag [TK_MACRO] (fun m => parse_twig_macro m child) TWIG_MACRO.
  Proof.
    tag parse_twig_macro. do 5 step. eapply J_app; [eapply sx_arguments; [exact HC|exact HN|reflexivity]|].
    cbv beta. intros _ r1 t1 _ H1. do 3 step.
    eapply S_complete_P with (P := fun cs => first_name cs = Some (tk_text tok0)); [reflexivity|sm| |].
    { intros G _. split; [exact I|]. rewrite (first_name_trees _ _ G). cbn [app item_name].
      rewrite (open_no_name _ Hko). apply mem_kind_in in E as [E|[]]. rewrite <- E.
      change (is_name TK_MACRO) with false. change (is_name TK_WORD) with true. cbn [map concat]. now rewrite app_nil_r. }
    intros cs1 Hcs1. cbn [app]. apply S_precede_node. intros m1.
    eapply J_app; [apply st_body; [eassumption|apply quiet_tag]|]. cbv beta. intros _ r4 t4 _ (c4 & cs4 & -> & _).
    apply (st_named_ending nat n r4 _ _ TK_ENDMACRO _ _ _ TWIG_MACRO_ENDING_BLOCK "macro" (tk_text tok0)); try reflexivity.
    intros r5 c5 cs5 H5. apply J_tail. eapply S_complete_P with (P := fun _ => True); [reflexivity|sm| |].
    - intros _ _. split; [|exact I]. cbn [agrees]. rewrite nodes_trees. cbn [app flat_map item_nodes nodes filter].
      exists (tk_text tok0). split; [exact Hcs1|exact H5].
    - intros cs6 _. done.
  Qed.
  Lemma no_nd_tok k k' : ~ In (Nd k) (tok_sym k').
  Proof. unfold tok_sym. destruct (junk k'); [auto|]. intros [X|[]]. discriminate. Qed.
  Lemma st_block child : Tag [TK_BLOCK] (fun m => parse_twig_block m child) TWIG_BLOCK.
  Proof.
    tag parse_twig_block. do 5 step; [|clear Heqb; call sx_expression; opts a H; cbn [is_none]; [|norm; step]; cbn [bind]].
    - step. step.
      eapply S_complete_P with (P := fun cs => first_name cs = Some (tk_text tok0) /\ ~ In (Nd TWIG_EXPRESSION) (content cs));
        [reflexivity|sm| |].
      { intros G Hc. split; [exact I|]. split.
        - rewrite (first_name_trees _ _ G). cbn [app item_name].
          rewrite (open_no_name _ Hko). apply mem_kind_in in E as [E|[]]. rewrite <- E.
          change (is_name TK_BLOCK) with false. change (is_name TK_WORD) with true. cbn [map concat]. now rewrite app_nil_r.
        - rewrite Hc. cks. intros X. repeat (apply in_app_iff in X as [X|X] || destruct X as [X|X]); try discriminate X; try contradiction;
          eapply no_nd_tok; eassumption. }
      intros cs1 [Hcs1 Hex]. cbn [app]. apply S_precede_node. intros m1. cbn [negb when].
      apply J_assoc. eapply J_app; [apply st_body; [eassumption|apply quiet_tag]|]. cbv beta.
      intros _ r4 t4 _ (c4 & cs4 & -> & _). eapply J_app.
      { apply (st_named_ending unit n r4 [] [] TK_ENDBLOCK _ _ _ TWIG_ENDING_BLOCK "block" (tk_text tok0) (fun _ => Ret tt)
          (fun _ _ t => node1 TWIG_ENDING_BLOCK (name_or_none (tk_text tok0)) t)); try reflexivity.
        intros r5 c5 cs5 H5. apply J_ret. exists c5, cs5. auto. }
      cbv beta. intros _ r5 t5 _ (c5 & cs5 & -> & H5).
      apply J_tail. eapply S_complete_P with (P := fun _ => True); [reflexivity|sm| |].
      + intros _ _. split; [|exact I]. cbn [agrees]. rewrite nodes_trees. cbn [app flat_map item_nodes nodes filter].
        split; [exact Hex|]. exists (tk_text tok0). split; [exact Hcs1|exact H5].
      + intros cs6 _. done.
    - step. eapply S_complete_P with (P := fun cs => In (Nd TWIG_EXPRESSION) (content cs)); [reflexivity|sm| |].
      { intros _ Hc. split; [exact I|]. rewrite Hc. destruct H as (s & Es & Hs). rewrite !ck_app, Es, !in_app_iff.
        left. right. destruct Hs as [<-|[]]. now left. }
      intros cs1 Hex. cbn [app]. apply S_precede_node. intros m1. cbn [negb when bind].
      apply J_tail. eapply S_complete_P with (P := fun _ => True); [reflexivity|sm| |].
      + intros _ _. split; [|exact I]. cbn [agrees]. rewrite nodes_trees. cbn [app flat_map item_nodes nodes filter]. exact Hex.
      + intros cs6 _. done.
  Qed.

  Lemma nd_no_tok ks k l : sem (nd ks) l -> ~ In (Tok k) l.
  Proof. intros (s & -> & Hs) [X|[]]. subst s. apply in_map_iff in Hs as (k' & X & _). discriminate. Qed.
  Lemma opt_no_tok m k l : (forall l, sem m l -> ~ In (Tok k) l) -> sem (opt m) l -> ~ In (Tok k) l.
  Proof. intros H [->|X]; [auto|]. now apply H. Qed.
  Lemma tk_no_tok k' k l : kind_eqb k' k = false -> sem (tk [k']) l -> ~ In (Tok k) l.
  Proof. intros H (s & -> & [<-|[]]) [X|[]]. injection X as ->. rewrite kind_eqb_refl in H. discriminate. Qed.
  Lemma tok_sym_in k k' : In (Tok k) (tok_sym k') -> k' = k.
  Proof. unfold tok_sym. destruct (junk k'); [intros []|]. intros [X|[]]. now injection X. Qed.

  Lemma st_embed child : Tag [TK_EMBED; TK_SW_EMBED] (fun m => parse_twig_embed m child) TWIG_EMBED.
  Proof.
    tag parse_twig_embed. step. step. set (sw := l_at TK_SW_EMBED r) in *.
    assert (Hsw : forall tok ts, r = tok :: ts -> (sw = true <-> tk_kind tok = TK_SW_EMBED)).
    { intros tok ts ->. apply kind_eqb_eq. }
    clearbody sw. step. specialize (Hsw _ _ eq_refl).
    call st_expression_or. call st_opt_bump. call st_include_with. call st_opt_bump. step.
    eapply S_complete_P with (P := fun cs => sw = true <-> In (Tok TK_SW_EMBED) (content cs)); [reflexivity|sm| |].
    { intros _ Hc. split; [exact I|]. rewrite Hsw, Hc. cks. split.
      - intros Ek. rewrite Ek. apply in_app_iff. right. now left.
      - intros X. repeat (apply in_app_iff in X as [X|X]).
        + apply tok_sym_in in X. subst ko. discriminate.
        + now apply tok_sym_in in X.
        + exfalso. eapply nd_no_tok; eassumption.
        + exfalso. eapply opt_no_tok in H0; [exact (H0 X)|]. intros l. apply tk_no_tok. reflexivity.
        + exfalso. eapply opt_no_tok in H1; [exact (H1 X)|]. intros l. apply nd_no_tok.
        + exfalso. eapply opt_no_tok in H2; [exact (H2 X)|]. intros l. apply tk_no_tok. reflexivity.
        + apply tok_sym_in in X. rewrite X in Hk. discriminate. }
    intros cs1 Hcs1. cbn [app]. apply S_precede_node. intros m1.
    eapply J_app; [apply st_body; [eassumption|apply quiet_or; apply quiet_tag]|]. cbv beta.
    intros _ r4 t4 _ (c4 & cs4 & -> & _).
    eapply J_app; [apply (st_ending n r4 _ [TK_ENDEMBED; TK_SW_END_EMBED]); destruct sw; reflexivity|].
    cbv beta. intros _ r5 t5 _ (c5 & cs5 & -> & H5).
    apply J_tail. eapply S_complete_P with (P := fun _ => True); [reflexivity|sm| |intros cs6 _; done].
    intros _ _. split; [|exact I]. cbn [agrees]. rewrite nodes_trees. cbn [app flat_map item_nodes nodes filter].
    unfold has. cbn [children]. rewrite <- Hcs1. destruct H5 as (ka & kb & Ha & Hb & E5). rewrite E5. cbn [In].
    destruct sw; split.
    - intros _. right. now left.
    - reflexivity.
    - discriminate.
    - intros [X|[X|[X|[]]]]; try discriminate X; injection X as ->; discriminate.
  Qed.

  Definition has_equal (cs : list tree) : Prop := In (Tok TK_EQUAL) (content cs).
  Lemma sep_no_equal k l : sem (Many (nd [k] >> comma) >> opt (nd [k])) l -> ~ In (Tok TK_EQUAL) l.
  Proof.
    intros (x & y & -> & Hx & Hy). rewrite in_app_iff. intros [X|X].
    - induction Hx as [|a b (u & v & -> & Hu & Hv) _ IH]; [exact X|]. rewrite !in_app_iff in X.
      destruct X as [[X|X]|X]; [eapply nd_no_tok; eassumption| |auto]. eapply tk_no_tok; [|exact Hv|exact X]. reflexivity.
    - eapply opt_no_tok; [|exact Hy|exact X]. intros l. apply nd_no_tok.
  Qed.
  Lemma sep_no_other k k' l : kind_eqb k k' = false -> sem (Many (nd [k] >> comma) >> opt (nd [k])) l -> cnt k' l = 0.
  Proof.
    assert (L : forall l, kind_eqb k k' = false -> sem (nd [k]) l -> cnt k' l = 0).
    { intros l0 Hk (s & -> & [<-|[]]). unfold cnt. cbn [filter is_nd]. now rewrite Hk. }
    intros Hk (x & y & -> & Hx & Hy). rewrite cnt_app. replace (cnt k' y) with 0.
    - induction Hx as [|a b (u & v & -> & Hu & Hv) _ IH]; [reflexivity|]. rewrite !cnt_app in *.
      rewrite (L u) by assumption. destruct Hv as (s & -> & [<-|[]]). cbn. exact IH.
    - destruct Hy as [->|Hy]; [reflexivity|]. now rewrite (L y).
  Qed.
  Lemma st_assignment n r : n <= N ->
    J n r [] [] parse_set_assignment (fun b _ t => node1 TWIG_ASSIGNMENT (fun cs => b = true <-> has_equal cs) t).
  Proof.
    intros HN. unfold parse_set_assignment. step. eapply J_app.
    { apply (S_sep nat n r 0 (l_at_set ([TK_EQUAL] ++ close3)) _ TWIG_LITERAL_NAME (fun c l => c = cnt TWIG_LITERAL_NAME l)).
      - reflexivity.
      - intros tok ts H. cbn [l_at_set]. rewrite H. reflexivity.
      - intros m1 r1 x l Hm ->. call sx_name. opts a H; cbn [is_none]; [|steps].
        pose proof (nd_not_nil _ _ H) as Hc. steps.
        + apply J_ret. cks. rewrite !cnt_app, Hc. split; [cbn; lia|]. left. now apply sem_seq; [|apply sem_tk_mem].
        + apply J_ret. cks. rewrite !cnt_app, Hc. split; [lia|]. right. split; [exact H|]. rewrite Hn. assumption. }
    cbv beta. intros dc r1 t1 _ [-> H1].
    pose proof (sep_no_equal _ _ H1) as Hne. pose proof (sep_no_other TWIG_LITERAL_NAME TWIG_EXPRESSION _ eq_refl H1) as Hc1.
    destruct (Nat.eqb_spec (cnt TWIG_LITERAL_NAME (ck t1)) 0) as [|Hd]; cbn [when]; [step|].
    apply sep_list1 in H1; [|intros X; rewrite X in Hd; apply Hd; reflexivity].
    step. step. step.
    - step. norm. eapply J_app.
      { apply (S_sep nat n _ 0 (l_at_set TWIG_BLOCK_CLOSE_SET) _ TWIG_EXPRESSION (fun c l => c = cnt TWIG_EXPRESSION l)).
        - reflexivity.
        - intros tok1 ts1 H. cbn [l_at_set]. rewrite H. reflexivity.
        - intros m1 r2 x l Hm ->. call sx_expression. opts a H; cbn [is_none]; [|steps].
          pose proof (nd_not_nil _ _ H) as Hc. steps.
          + apply J_ret. cks. rewrite !cnt_app, Hc. split; [cbn; lia|]. left. now apply sem_seq; [|apply sem_tk_mem].
          + apply J_ret. cks. rewrite !cnt_app, Hc. split; [lia|]. right. split; [exact H|]. rewrite Hn. assumption. }
      cbv beta. intros ac r2 t2 _ [-> H2]. pose proof (sep_no_other TWIG_EXPRESSION TWIG_LITERAL_NAME _ eq_refl H2) as Hc2.
      destruct (Nat.eqb_spec (cnt TWIG_LITERAL_NAME (ck t1)) (cnt TWIG_EXPRESSION (ck t2))) as [Hcc|]; cbn [negb when]; [|norm; step].
      apply sep_list1 in H2; [|intros X; rewrite X in Hcc; apply Hd; exact Hcc].
      cbn [bind]. norm. eapply S_complete_P with (P := fun cs => true = true <-> has_equal cs); [reflexivity| | |].
      + cks. apply sem_seq; [exact H1|]. apply sem_opt. apply sem_seq_cons; [now apply sem_tk_mem|exact H2].
      + intros _ Hc. unfold has_equal. cbn [agrees]. rewrite !cnt_content, Hc. cks. change (Tok TK_EQUAL :: ck t2) with ([Tok TK_EQUAL] ++ ck t2).
        rewrite !cnt_app, !in_app_iff. split.
        * intros _. rewrite Hc1, Hc2. cbn. lia.
        * split; [|reflexivity]. intros _. right. left. now left.
      + intros cs Hcs. apply J_ret. exists m, cs. auto.
    - destruct (Nat.ltb 1 (cnt TWIG_LITERAL_NAME (ck t1))); cbn [when]; [step|]. cbn [bind]. norm.
      eapply S_complete_P with (P := fun cs => false = true <-> has_equal cs); [reflexivity| | |].
      + apply sem_seq_last; [exact H1|apply sem_opt_nil].
      + intros _ Hc. unfold has_equal. cbn [agrees]. rewrite Hc. split; [contradiction|]. split; [discriminate|contradiction].
      + intros cs Hcs. apply J_ret. exists m, cs. auto.
  Qed.
  Lemma st_set child : Tag [TK_SET] (fun m => parse_twig_set m child) TWIG_SET.
  Proof.
    tag parse_twig_set. step. step. norm. eapply J_app; [apply st_assignment; lia|]. cbv beta.
    intros b r1 t1 _ (c1 & cs1 & -> & H1). step.
    eapply S_complete_P with (P := fun cs => In (Node TWIG_ASSIGNMENT cs1) cs /\
      forall a, In a cs -> tree_kind a = TWIG_ASSIGNMENT -> a = Node TWIG_ASSIGNMENT cs1); [reflexivity|sm| |].
    { intros G _. split; [exact I|].
      assert (L : forall l a, Forall trivia_token l -> In a (map leaf l) -> tree_kind a = TWIG_ASSIGNMENT -> a = Node TWIG_ASSIGNMENT cs1).
      { intros l a F X Ek. apply in_map_iff in X as (x & <- & Hx). rewrite Forall_forall in F. specialize (F _ Hx).
        cbn [leaf tree_kind] in Ek. unfold trivia_token in F. rewrite Ek in F. discriminate. }
      cbn [app] in G. apply Forall_cons_iff in G as [G1 G]. apply Forall_cons_iff in G as [G2 G].
      apply Forall_cons_iff in G as [_ G]. apply Forall_cons_iff in G as [G3 _]. cbn [gooditem] in *.
      unfold trees. cbn [app flat_map item_trees]. rewrite <- !app_assoc, app_nil_r. split.
      - rewrite !in_app_iff. cbn [In app]. tauto.
      - intros a X Ek. repeat (apply in_app_iff in X as [X|X] || (destruct X as [X|X]; [subst a|])); try (eapply L; [|exact X|exact Ek]; assumption);
          try contradiction; try reflexivity.
        + cbn [tree_kind] in Ek. subst ko. discriminate.
        + cbn [tree_kind] in Ek. rewrite Ek in E. discriminate.
        + cbn [tree_kind] in Ek. rewrite Ek in Hk. discriminate. }
    intros cs2 [Hin Hall]. cbn [app]. apply S_precede_node. intros m1.
    destruct b; cbn [negb when].
    - cbn [bind]. apply J_tail. eapply S_complete_P with (P := fun _ => True); [reflexivity|sm| |intros cs6 _; done].
      intros _ _. split; [|exact I]. cbn [agrees]. rewrite nodes_trees. cbn [app flat_map item_nodes nodes filter children].
      eexists. split; [exact Hin|]. split; [reflexivity|]. now apply H1.
    - apply J_assoc. eapply J_app; [apply st_body; [eassumption|apply quiet_tag]|]. cbv beta.
      intros _ r4 t4 _ (c4 & cs4 & -> & _).
      eapply J_app; [apply (st_ending n r4 _ [TK_ENDSET]); reflexivity|].
      cbv beta. intros _ r5 t5 _ (c5 & cs5 & -> & H5).
      apply J_tail. eapply S_complete_P with (P := fun _ => True); [reflexivity|sm| |intros cs6 _; done].
      intros _ _. split; [|exact I]. cbn [agrees]. rewrite nodes_trees. cbn [app flat_map item_nodes nodes filter children].
      intros a Ha Ek X. rewrite (Hall a Ha Ek) in X. apply H1 in X. discriminate.
  Qed.

  (** * The statement *)
  Lemma J_seq (A B : Set) n r segs t (p : prog A) (g : A -> prog B) (R1 : res_spec A) (R : res_spec B) :
    J n r segs t p R1 ->
    (forall a r1 t1, Forall good t1 -> R1 a r1 t1 -> J n r1 [] t1 (g a) R) ->
    J n r segs t (bind p g) R.
  Proof.
    intros H Hg Ht Hs its st. apply wp_bind. eapply wp_mono; [exact (H Ht Hs its st)|]. cbn.
    intros a r' i s (t' & -> & -> & G & Ha). exact (Hg a r' t' G Ha G (Forall_nil _) its st).
  Qed.
  Lemma at_in k r : l_at k r = true -> l_at_set [k] r = true.
  Proof. destruct r as [|u us]; [discriminate|]. intros X. apply at_cons in X. cbn [l_at_set]. rewrite X. cbn. now rewrite kind_eqb_refl. Qed.
  Lemma statement_kind k c t : mem_kind k twig_statements = true -> is1 [k] c t -> opt1 twig_statements (Some c) t.
  Proof. intros Hk H. eapply is1_sub; [exact H|]. cbn [forallb]. now rewrite Hk. Qed.
  Ltac branch L :=
    step; step; [norm; eapply J_seq; [eapply L; first [eassumption | apply at_in; eassumption]|];
                 cbv beta; intros; repeat step; apply J_ret; eapply statement_kind; [|eassumption]; reflexivity|].

  Lemma st_statement n r child : n <= N -> drop_trivia r = r -> l_at_set TWIG_BLOCK_OPEN_SET r = true ->
    J n r [] [] (parse_twig_block_statement child) (fun a _ t => opt1 twig_statements a t).
  Proof.
    intros HN Hn E. unfold parse_twig_block_statement, parse_shopware_twig_block_statement. do 3 step. cbn [app].
    branch st_block. branch st_if. branch st_set. branch st_for. branch st_extends. branch st_include. branch st_embed.
    branch st_use. branch st_from. branch st_import. branch st_apply. branch st_autoescape. branch st_deprecated.
    branch st_do. branch st_flush. branch st_sandbox. branch st_verbatim. branch st_macro. branch st_with.
    branch st_cache. branch st_trans. branch st_component. branch st_props.
    branch st_sw_extends. branch st_sw_include. branch st_feature. branch st_return. branch st_icon. branch st_thumbnails.
    step. step.
  Qed.
End Tags.
