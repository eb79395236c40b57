(** Property theorems about the trees of templates without syntax errors: C12, C13 and C44. *)
From Coq Require Import NArith String Bool Arith Lia List.
Import ListNotations.
From Verif Require Import Text Kind Regex Lexer LexerProofs ParserApi GrammarExpr GrammarTags GrammarHtml
  Machine TreeMachine Simulation TreeSpec WpBase Total TotalHtml PropParser Schema Shape ShapeStrict ShapeHtml.
Local Notation length := List.length (only parsing).
Local Open Scope list_scope.
Local Open Scope cm_scope.

(** * A run without errors is a strict run *)

(** The strict machine gives the same result if no error is added. *)
Definition agree_unless_error {A : Type} (s : tstate) (r1 r2 : res (A * tstate)) : Prop :=
  match r1 with
  | OK (a, s') => length (t_errs s) <= length (t_errs s') /\
                  (length (t_errs s') = length (t_errs s) -> r2 = OK (a, s'))
  | _ => True
  end.
Lemma agree_bind (A B : Type) s (r1 r2 : res (A * tstate)) (f g : A * tstate -> res (B * tstate)) :
  agree_unless_error s r1 r2 -> (forall a s', agree_unless_error s' (f (a, s')) (g (a, s'))) ->
  agree_unless_error s (rbind r1 f) (rbind r2 g).
Proof.
  intros H Hf. destruct r1 as [[a s1]|q|]; cbn [rbind agree_unless_error] in *; auto. destruct H as [H1 H2].
  specialize (Hf a s1). destruct (f (a, s1)) as [[b s2]|q|]; cbn [agree_unless_error] in *; auto.
  destruct Hf as [H3 H4]. split; [lia|]. intros E. rewrite H2 by lia. cbn [rbind]. apply H4. lia.
Qed.
Lemma agree_step dbg T (B : Set) (o : op B) s :
  agree_unless_error s (tstep false dbg T B o s) (tstep true dbg T B o s).
Proof.
  assert (L : forall r, match r with OK (_, s') => t_errs s' = t_errs s | _ => True end ->
    tstep true dbg T B o s = r -> agree_unless_error s r (tstep true dbg T B o s)).
  { intros [[b s']|q|] H E; cbn [agree_unless_error]; auto. rewrite H. split; auto. }
  destruct o; try (apply L; [|reflexivity]; cbn [tstep];
    repeat match goal with |- match (match ?x with _ => _ end) with _ => _ end => destruct x end; auto; fail).
  cbn [tstep]. destruct at_ as [t|].
  - cbn [agree_unless_error t_errs]. rewrite app_length. cbn [length]. split; lia.
  - destruct (error_here T (drop_trivia (t_rest s)) expected) as [e|q|]; cbn [rbind agree_unless_error t_errs]; auto.
    rewrite app_length. cbn [length]. split; lia.
Qed.
Lemma agree_run dbg T : forall n (A : Set) (p : prog A) s,
  agree_unless_error s (run (tstep false dbg T) n p s) (run (tstep true dbg T) n p s).
Proof.
  induction n as [n IHn] using (well_founded_induction lt_wf).
  intros A p. induction p as [A a|A B o k IH|A c k IH|A X B f IHf x k IH]; intros s.
  - rewrite !run_Ret. cbn. auto.
  - rewrite !run_Op. apply agree_bind; [apply agree_step|]. intros. apply IH.
  - rewrite !run_Call. apply agree_bind; [|intros; apply IH]. destruct n as [|n]; [exact I|]. apply IHn. lia.
  - rewrite !run_Iter. apply agree_bind; [|intros; apply IH]. apply agree_bind; [apply IHf|]. intros [x'|b] s1; cbn [fst snd].
    + destruct n as [|n]; [exact I|]. apply IHn. lia.
    + cbn. auto.
Qed.

(** * Every node of an error-free parse *)
Lemma error_free_tree dbg src t : parse_src dbg src = OK (t, []) -> every (wf dbg) t.
Proof.
  intros H. unfold parse_src in H. destruct (lex src) as [|t0 T0] eqn:E0.
  { assert (E : parse_tokens dbg (parse_fuel []) [] = OK (Node ROOT [], [])) by (destruct dbg; vm_compute; reflexivity).
    rewrite E in H. injection H as <-. constructor; [|constructor]. left. split; [apply sem_many_nil|exact I]. }
  revert H. generalize (t0 :: T0), (@nil_cons _ t0 T0). clear. intros T HT H. cbv zeta in H.
  pose proof (parse_tokens_sim dbg (parse_fuel T) T) as Sim.
  pose proof (root_wp dbg T (not_eq_sym HT) (t_root T)) as W.
  assert (Hw : Total.wf T (t_root T)).
  { constructor; cbn [t_root t_rest t_snk t_items t_stack t_errs]; auto.
    - exists []. reflexivity.
    - exists []. split; [reflexivity|]. cbn. constructor.
    - exists Apart. split; [reflexivity|]. congruence. }
  specialize (W Hw eq_refl eq_refl eq_refl). unfold parse_fuel in *.
  pose proof (agree_run dbg T (2 * length T + 1) _ root_body (t_root T)) as A.
  pose proof (shape_root dbg T (2 * length T + 1) T) as S.
  destruct (run (tstep false dbg T) (2 * length T + 1) root_body (t_root T)) as [[u s]|q|]; cbn [holds agree_unless_error] in *.
  - destruct W as ([W1 _ _ _ _] & Hd & Hs). rewrite W1 in Sim. specialize (Sim Hs Hd). rewrite Sim in H.
    injection H as <- He. destruct A as [_ A]. rewrite He in A. specialize (A eq_refl).
    specialize (S (Forall_nil _) (Forall_nil _) [] [(0, [])] (t_root T)). cbn [cur stk app] in S.
    rewrite A in S. cbn [holds] in S. destruct S as [_ (t' & _ & Ht & G & HR)]; auto.
    { constructor; cbn [t_root t_rest t_snk t_items t_stack t_nev ids marks flat_map app]; auto.
      - constructor; [auto|constructor]. }
    cbn [app] in Ht. rewrite Ht.
    assert (Tr : Forall trivia_token (t_snk s)).
    { rewrite <- (take_drop_trivia (t_snk s)), W1, Hd, app_nil_r. apply take_trivia_trivia. }
    assert (C : trees t' ++ map leaf (t_snk s) = trees (t' ++ [ITriv (t_snk s)])).
    { unfold trees. rewrite flat_map_app. cbn [flat_map item_trees]. now rewrite app_nil_r. }
    assert (G' : Forall (gooditem (wf dbg)) (t' ++ [ITriv (t_snk s)])) by (apply Forall_app; split; [exact G|repeat constructor; exact Tr]).
    rewrite C. constructor; [|apply good_trees; exact G']. left. split; [|exact I]. unfold conforms. cbn [schema]. rewrite (ck_content _ _ G'), ck_app. cbn [ck flat_map item_sym app]. rewrite app_nil_r. exact HR.
  - destruct q; try discriminate; try (rewrite Sim in H; discriminate). exfalso.
    destruct W as [[_ X]|[_ [X|[X|X]]]]; discriminate X.
  - rewrite Sim in H. discriminate.
Qed.

(** * C44: the syntax tree of an error-free template follows the grammar *)

(** In a debug build every node, at any depth, has exactly the children that Schema.v allows
    for its kind, and its parts agree (names of starting and ending parts, number of assigned
    values, ...). *)
Theorem C44_error_free_well_formed : forall src t, parse_src true src = OK (t, []) ->
  forall k cs, subtree (Node k cs) t -> well_formed k cs.
Proof.
  intros src t H k cs Hs. apply error_free_tree in H. destruct (every_subtree _ _ _ _ H Hs) as [W|[W _]]; [exact W|discriminate].
Qed.
(** In a release build the same holds with one exception: any token is taken for the arrow of
    an arrow function with several parameters. *)
Theorem C44_error_free_well_formed_release : forall src t, parse_src false src = OK (t, []) ->
  forall k cs, subtree (Node k cs) t ->
  well_formed k cs \/
  (k = TWIG_ARROW_FUNCTION /\ sem (nd [TWIG_ARGUMENTS] >> opt AnyTok >> nd [TWIG_EXPRESSION]) (content cs)).
Proof.
  intros src t H k cs Hs. apply error_free_tree in H. destruct (every_subtree _ _ _ _ H Hs) as [W|(_ & W)]; auto.
Qed.

(** In particular there is no error node in it, in any build. *)
Theorem C44_no_error_nodes : forall dbg src t, parse_src dbg src = OK (t, []) ->
  forall k cs, subtree (Node k cs) t -> k <> ERROR.
Proof.
  intros dbg src t H k cs Hs ->. apply error_free_tree in H.
  destruct (every_subtree _ _ _ _ H Hs) as [[W _]|(_ & W & _)]; [exact W|discriminate].
Qed.

(** A template with nested elements, blocks, attributes and expressions parses without errors;
    its tree has 49 nodes of 27 different kinds. *)
Fixpoint node_kinds (t : tree) : list kind :=
  match t with Leaf _ _ => [] | Node k cs => k :: flat_map node_kinds cs end.
Definition sample : text := txt
  "{% block a %}<div class=""x {{ y|f(1) }}""><br>{% if a.b in [1, 2] %}<x-y/>{% endif %}t</div>{% endblock a %}"%string.
Example C44_case : exists t, parse_src true sample = OK (t, []) /\ length (node_kinds t) = 49 /\
  length (nodup kind_eq_dec (node_kinds t)) = 27.
Proof. eexists. split; [vm_compute; reflexivity|]. split; vm_compute; reflexivity. Qed.

(** The exception of release builds: here [c] stands for the arrow. *)
Fixpoint subtrees (t : tree) : list tree :=
  t :: match t with Leaf _ _ => [] | Node _ cs => flat_map subtrees cs end.
Lemma subtrees_sound : forall t x, In x (subtrees t) -> subtree x t.
Proof.
  fix IH 1. intros t x. destruct t as [k w|k cs]; cbn [subtrees].
  - intros [<-|[]]. constructor.
  - intros [<-|H]; [constructor|]. apply in_flat_map in H as (c & Hc & H).
    apply sub_child with c; [exact Hc|]. revert c Hc H. induction cs as [|c0 cs IHcs]; [intros c []|].
    intros c [<-|Hc] H; [apply IH; exact H|]. now apply (IHcs c).
Qed.
Definition of_kind (k : kind) (t : tree) : bool :=
  match t with Node k' _ => kind_eqb k' k | Leaf _ _ => false end.
Definition first_of (k : kind) (t : tree) : option tree := find (of_kind k) (subtrees t).
Lemma first_of_sound k t x : first_of k t = Some x -> exists cs, x = Node k cs /\ subtree (Node k cs) t.
Proof.
  intros H. apply find_some in H as [H1 H2]. apply subtrees_sound in H1. destruct x as [|k' cs]; [discriminate|].
  apply kind_eqb_eq in H2. subst k'. eauto.
Qed.

Definition word_for_arrow (r : res (tree * list perror)) : bool :=
  match r with
  | OK (t, []) =>
    match first_of TWIG_ARROW_FUNCTION t with
    | Some (Node _ cs) => match content cs with [_; Tok TK_WORD; _] => true | _ => false end
    | _ => false
    end
  | _ => false
  end.
Lemma arrow_case : word_for_arrow (parse_src false (txt "{{ (a, b) c d }}"%string)) = true.
Proof. vm_compute. reflexivity. Qed.
Theorem C44_arrow_token_refuted : ~ (forall src t, parse_src false src = OK (t, []) ->
  forall k cs, subtree (Node k cs) t -> well_formed k cs).
Proof.
  intros H. specialize (H (txt "{{ (a, b) c d }}"%string)). pose proof arrow_case as A. revert H A.
  generalize (parse_src false (txt "{{ (a, b) c d }}"%string)). intros [[t [|]]|q|] H A; try discriminate A. cbn [word_for_arrow] in A.
  destruct (first_of TWIG_ARROW_FUNCTION t) as [x|] eqn:F; [|discriminate A].
  destruct (first_of_sound _ _ _ F) as (cs & -> & S).
  destruct (H t eq_refl _ _ S) as [W _]. unfold conforms in W. cbn [schema] in W.
  destruct W as (x & y & E1 & (a & -> & _) & (x2 & y2 & -> & (b & -> & Hb) & _)). rewrite E1 in A. cbn [app] in A.
  destruct Hb as [<-|[]]. discriminate A.
Qed.

(** * C12: matched html tags *)

(** The name of a starting or ending tag is the text of its first word.  An element without
    an ending tag ends in [/>] or is one of the void elements; any other element has a
    starting tag, its content and an ending tag of the same name, all of them children of the
    same node. *)
Definition matched_element (cs : list tree) : Prop :=
  (exists s n, nodes cs = [Node HTML_STARTING_TAG s] /\ first_name s = Some n /\
     (In (Tok TK_SLASH_GREATER_THAN) (content s) \/ In (map to_lower_ascii n) void_elements)) \/
  (exists s b e n, nodes cs = [Node HTML_STARTING_TAG s; Node BODY b; Node HTML_ENDING_TAG e] /\
     first_name s = Some n /\ first_name e = Some n /\
     ~ In (Tok TK_SLASH_GREATER_THAN) (content s) /\ ~ In (map to_lower_ascii n) void_elements).

(** Nodes and content. *)
Lemma nodes_content : forall cs, map (fun t => Nd (tree_kind t)) (nodes cs)
  = filter (fun s => match s with Nd _ => true | Tok _ => false end) (content cs).
Proof.
  induction cs as [|[k w|k cs'] cs IH]; [reflexivity| |].
  - unfold content in *. cbn [nodes filter flat_map symbol]. fold (nodes cs). rewrite IH.
    destruct (junk k); reflexivity.
  - unfold content in *. cbn [nodes filter flat_map symbol app map tree_kind]. fold (nodes cs). now rewrite IH.
Qed.
Lemma nodes_nodes cs : Forall (fun t => exists k l, t = Node k l) (nodes cs).
Proof. apply Forall_forall. intros t H. apply filter_In in H as [_ H]. destruct t; [discriminate|eauto]. Qed.

Theorem C12_matched_tags : forall dbg src t, parse_src dbg src = OK (t, []) ->
  forall cs, subtree (Node HTML_TAG cs) t -> matched_element cs.
Proof.
  intros dbg src t H cs Hs. apply error_free_tree in H.
  destruct (every_subtree _ _ _ _ H Hs) as [[C A]|(_ & X & _)]; [|discriminate X].
  unfold conforms in C. cbn [schema] in C. pose proof (nodes_content cs) as Hn. pose proof (nodes_nodes cs) as Hf.
  cbn [agrees] in A. destruct C as [(x & E & [<-|[]])|C].
  - rewrite E in Hn. cbn [filter] in Hn. destruct (nodes cs) as [|s [|? ?]] eqn:En; try discriminate Hn.
    injection Hn as Hk. inversion Hf as [|? ? (k & l & ->) _]; subst. cbn [tree_kind] in Hk. subst k.
    destruct A as (n & H1 & H2). left. exists l, n. auto.
  - destruct C as (x1 & y1 & E & (s1 & -> & [<-|[]]) & (x2 & y2 & -> & (s2 & -> & [<-|[]]) & (s3 & -> & [<-|[]]))).
    rewrite E in Hn. cbn [filter app] in Hn. destruct (nodes cs) as [|s [|b [|e [|? ?]]]] eqn:En; try discriminate Hn.
    injection Hn as H1 H2 H3. inversion Hf as [|? ? (k1 & l1 & ->) Hf1]; subst. inversion Hf1 as [|? ? (k2 & l2 & ->) Hf2]; subst.
    inversion Hf2 as [|? ? (k3 & l3 & ->) _]; subst. cbn [tree_kind] in *. subst k1 k2 k3.
    destruct A as (n & A1 & A2 & A3 & A4). right. exists l1, l2, l3, n. auto.
Qed.

(** An element with an ending tag, a void element and a self closing one. *)
Definition tag_parts (t : tree) : list (list kind) :=
  map (fun t => map tree_kind (nodes (children t))) (filter (of_kind HTML_TAG) (subtrees t)).
Example C12_case : exists t, parse_src true sample = OK (t, []) /\
  tag_parts t = [[HTML_STARTING_TAG; BODY; HTML_ENDING_TAG]; [HTML_STARTING_TAG]; [HTML_STARTING_TAG]].
Proof. eexists. split; vm_compute; reflexivity. Qed.
(** The claim is about trees without errors only: here the element is not closed inside the
    block, which is reported. *)
Example C12_crossing : exists t errs, parse_src true (txt "{% block a %}<p>{% endblock %}</p>"%string) = OK (t, errs) /\
  map err_expected errs = [txt "</p> ending tag"%string; txt "html, text or twig element"%string].
Proof. do 2 eexists. split; vm_compute; reflexivity. Qed.

(** * C13: closed twig tags *)

(** Tags that enclose a part of the template: node, starting part, keyword of the ending
    part, ending part. *)
Definition enclosing_tags : list (kind * kind * list kind * kind) :=
  [(TWIG_BLOCK, TWIG_STARTING_BLOCK, [TK_ENDBLOCK], TWIG_ENDING_BLOCK);
   (TWIG_IF, TWIG_IF_BLOCK, [TK_ENDIF], TWIG_ENDIF_BLOCK);
   (TWIG_SET, TWIG_SET_BLOCK, [TK_ENDSET], TWIG_ENDSET_BLOCK);
   (TWIG_FOR, TWIG_FOR_BLOCK, [TK_ENDFOR], TWIG_ENDFOR_BLOCK);
   (TWIG_APPLY, TWIG_APPLY_STARTING_BLOCK, [TK_ENDAPPLY], TWIG_APPLY_ENDING_BLOCK);
   (TWIG_AUTOESCAPE, TWIG_AUTOESCAPE_STARTING_BLOCK, [TK_ENDAUTOESCAPE], TWIG_AUTOESCAPE_ENDING_BLOCK);
   (TWIG_EMBED, TWIG_EMBED_STARTING_BLOCK, [TK_ENDEMBED; TK_SW_END_EMBED], TWIG_EMBED_ENDING_BLOCK);
   (TWIG_SANDBOX, TWIG_SANDBOX_STARTING_BLOCK, [TK_ENDSANDBOX], TWIG_SANDBOX_ENDING_BLOCK);
   (TWIG_VERBATIM, TWIG_VERBATIM_STARTING_BLOCK, [TK_ENDVERBATIM], TWIG_VERBATIM_ENDING_BLOCK);
   (TWIG_MACRO, TWIG_MACRO_STARTING_BLOCK, [TK_ENDMACRO], TWIG_MACRO_ENDING_BLOCK);
   (TWIG_WITH, TWIG_WITH_STARTING_BLOCK, [TK_ENDWITH], TWIG_WITH_ENDING_BLOCK);
   (TWIG_CACHE, TWIG_CACHE_STARTING_BLOCK, [TK_ENDCACHE], TWIG_CACHE_ENDING_BLOCK);
   (TWIG_TRANS, TWIG_TRANS_STARTING_BLOCK, [TK_ENDTRANS], TWIG_TRANS_ENDING_BLOCK);
   (TWIG_COMPONENT, TWIG_COMPONENT_STARTING_BLOCK, [TK_ENDCOMPONENT], TWIG_COMPONENT_ENDING_BLOCK);
   (SHOPWARE_SILENT_FEATURE_CALL, SHOPWARE_SILENT_FEATURE_CALL_STARTING_BLOCK, [TK_ENDSW_SILENT_FEATURE_CALL],
    SHOPWARE_SILENT_FEATURE_CALL_ENDING_BLOCK)].

(** The two short forms: [{% block a expression %}] and [{% set a = expression %}]. *)
Definition short_form (w : kind) (cs : list tree) : Prop :=
  (w = TWIG_BLOCK /\ exists s, nodes cs = [Node TWIG_STARTING_BLOCK s] /\ In (Nd TWIG_EXPRESSION) (content s)) \/
  (w = TWIG_SET /\ exists s a, nodes cs = [Node TWIG_SET_BLOCK s] /\ In (Node TWIG_ASSIGNMENT a) s /\
     In (Tok TK_EQUAL) (content a)).
(** Starting part first, ending part last, the ending part being opening delimiter, keyword,
    possibly a name, closing delimiter. *)
Definition enclosed (s : kind) (kws : list kind) (e : kind) (cs : list tree) : Prop :=
  exists ss mid es o kw nm c, nodes cs = Node s ss :: mid ++ [Node e es] /\ In kw kws /\
    content es = Tok o :: Tok kw :: nm ++ [Tok c] /\
    In o [TK_CURLY_PERCENT; TK_CURLY_PERCENT_MINUS; TK_CURLY_PERCENT_TILDE] /\
    In c [TK_PERCENT_CURLY; TK_MINUS_PERCENT_CURLY; TK_TILDE_PERCENT_CURLY] /\
    (nm = [] \/ (nm = [Tok TK_WORD] /\ first_name ss <> None /\ first_name es = first_name ss)).

(** ** Reading content models backwards *)
Definition is_node (s : sym) : bool := match s with Nd _ => true | Tok _ => false end.
Lemma simple_tag_inv ks l : sem (simple_tag ks) l -> exists o kw c, l = [Tok o; Tok kw; Tok c] /\
  In o [TK_CURLY_PERCENT; TK_CURLY_PERCENT_MINUS; TK_CURLY_PERCENT_TILDE] /\ In kw ks /\
  In c [TK_PERCENT_CURLY; TK_MINUS_PERCENT_CURLY; TK_TILDE_PERCENT_CURLY].
Proof.
  intros (x1 & y1 & -> & (s1 & -> & H1) & (x2 & y2 & -> & (s2 & -> & H2) & (s3 & -> & H3))).
  apply in_map_iff in H1 as (o & <- & H1). apply in_map_iff in H2 as (kw & <- & H2). apply in_map_iff in H3 as (c & <- & H3).
  exists o, kw, c. auto.
Qed.
Lemma tag_inv ks r l : sem (tag ks r) l -> exists o kw m c, l = Tok o :: Tok kw :: m ++ [Tok c] /\
  In o [TK_CURLY_PERCENT; TK_CURLY_PERCENT_MINUS; TK_CURLY_PERCENT_TILDE] /\ In kw ks /\ sem r m /\
  In c [TK_PERCENT_CURLY; TK_MINUS_PERCENT_CURLY; TK_TILDE_PERCENT_CURLY].
Proof.
  intros (x1 & y1 & -> & (s1 & -> & H1) & (x2 & y2 & -> & (s2 & -> & H2) & (x3 & y3 & -> & Hr & (s3 & -> & H3)))).
  apply in_map_iff in H1 as (o & <- & H1). apply in_map_iff in H2 as (kw & <- & H2). apply in_map_iff in H3 as (c & <- & H3).
  exists o, kw, x3, c. auto.
Qed.
(** Nodes from content. *)
Lemma first_last_nodes s e mid cs : map (fun t => Nd (tree_kind t)) (nodes cs) = Nd s :: mid ++ [Nd e] ->
  exists ss m es, nodes cs = Node s ss :: m ++ [Node e es] /\ map (fun t => Nd (tree_kind t)) m = mid.
Proof.
  intros H. pose proof (nodes_nodes cs) as F. destruct (nodes cs) as [|t1 l]; [discriminate H|].
  cbn [map] in H. injection H as H1 H2. destruct (map_eq_app _ _ _ _ H2) as (l1 & l2 & -> & Hm & H3).
  destruct l2 as [|t2 [|? ?]]; try discriminate H3. cbn [map] in H3. injection H3 as H3.
  inversion F as [|? ? (k1 & c1 & ->) F1]; subst. apply Forall_app in F1 as [_ F1]. inversion F1 as [|? ? (k2 & c2 & ->) _]; subst.
  cbn [tree_kind] in *. eauto 8.
Qed.
Lemma filter_Many ks l : sem (Many (nd ks)) l -> filter is_node l = l.
Proof. induction 1 as [|x y (s & -> & Hs) _ IH]; [reflexivity|]. apply in_map_iff in Hs as (k & <- & _). cbn. now rewrite IH. Qed.

Section C13.
  Context (dbg : bool) (src : text) (t : tree) (HP : parse_src dbg src = OK (t, [])).
  Lemma wf_node k cs : k <> TWIG_ARROW_FUNCTION -> subtree (Node k cs) t -> well_formed k cs.
  Proof. intros Hk Hs. destruct (every_subtree _ _ _ _ (error_free_tree _ _ _ HP) Hs) as [W|(_ & X & _)]; [exact W|contradiction]. Qed.
  Lemma child_subtree c k cs : In c (nodes cs) -> subtree (Node k cs) t -> subtree c t.
  Proof.
    intros Hc Hs. apply filter_In in Hc as [Hc _]. revert Hs. generalize t. intros t0 Hs. remember (Node k cs) as x eqn:Ex.
    induction Hs as [|k' cs' c' Hc' Hs IH]; [subst; apply sub_child with c; [exact Hc|constructor]|].
    apply sub_child with c'; auto.
  Qed.
  Lemma enclosed_of w s kws e cs : subtree (Node w cs) t -> w <> TWIG_ARROW_FUNCTION -> e <> TWIG_ARROW_FUNCTION ->
    (exists mid, filter is_node (content cs) = Nd s :: mid ++ [Nd e]) ->
    schema e = Some (simple_tag kws) ->
    enclosed s kws e cs.
  Proof.
    intros Hs Hw He (mid & Hf) He2. pose proof (nodes_content cs) as Hn. fold is_node in Hn.
    change (fun s0 : sym => match s0 with Tok _ => false | Nd _ => true end) with is_node in Hn. rewrite Hf in Hn.
    apply first_last_nodes in Hn as (ss & m & es & En & _).
    assert (Se : subtree (Node e es) t).
    { eapply child_subtree; [|exact Hs]. rewrite En. right. apply in_app_iff. right. now left. }
    destruct (wf_node _ _ He Se) as [C _]. unfold conforms in C. rewrite He2 in C.
    apply simple_tag_inv in C as (o & kw & c & Ec & Ho & Hk & Hc).
    exists ss, m, es, o, kw, [], c. repeat split; auto.
  Qed.
  Lemma wrapped_nodes s e l : sem (wrapped s e) l -> l = [Nd s; Nd BODY; Nd e].
  Proof.
    intros (x1 & y1 & -> & (s1 & -> & [<-|[]]) & (x2 & y2 & -> & (s2 & -> & [<-|[]]) & (s3 & -> & [<-|[]]))). reflexivity.
  Qed.
  Lemma no_name_no_word : forall cs, first_name cs = None -> ~ In (Tok TK_WORD) (content cs).
  Proof.
    induction cs as [|[k w|k cs'] cs IH]; intros H; [auto| |].
    - cbn [first_name] in H. destruct (is_name k) eqn:E; [discriminate|]. unfold content in *. cbn [flat_map symbol].
      intros X. apply in_app_iff in X as [X|X]; [|now apply IH]. destruct (junk k); [destruct X|]. destruct X as [X|[]].
      injection X as ->. discriminate E.
    - cbn [first_name] in H. unfold content in *. cbn [flat_map symbol app]. intros [X|X]; [discriminate X|]. now apply IH.
  Qed.
  (** block and macro, whose ending parts may have a name *)
  Lemma enclosed_named w s kw e cs : subtree (Node w cs) t -> e <> TWIG_ARROW_FUNCTION ->
    content cs = [Nd s; Nd BODY; Nd e] ->
    match nodes cs with [a; _; b] => same_or_no_name a b | _ => False end ->
    schema e = Some (tag [kw] (opt (tk [TK_WORD]))) ->
    enclosed s [kw] e cs.
  Proof.
    intros Hs He Hf Ha He2. pose proof (nodes_content cs) as Hn. rewrite Hf in Hn. cbn [filter] in Hn.
    change [Nd s; Nd BODY; Nd e] with (Nd s :: [Nd BODY] ++ [Nd e]) in Hn.
    apply first_last_nodes in Hn as (ss & m & es & En & Hm).
    assert (Se : subtree (Node e es) t).
    { eapply child_subtree; [|exact Hs]. rewrite En. right. apply in_app_iff. right. now left. }
    destruct (wf_node _ _ He Se) as [C _]. unfold conforms in C. rewrite He2 in C.
    apply tag_inv in C as (o & k & nm & c & Ec & Ho & Hk & Hr & Hc).
    exists ss, m, es, o, k, nm, c. repeat split; auto.
    destruct Hr as [->|(x & -> & [<-|[]])]; [now left|]. right. split; [reflexivity|].
    rewrite En in Ha. destruct m as [|b [|? ?]]; try discriminate Hm. cbn [app] in Ha. destruct Ha as (n & N1 & N2).
    unfold part_name in *. cbn [children] in *.
    destruct N2 as [N2|N2]; [exfalso; apply (no_name_no_word _ N2); rewrite Ec; right; right; now left|].
    rewrite N1, N2. split; [discriminate|reflexivity].
  Qed.
End C13.

Theorem C13_closed_tags : forall dbg src t, parse_src dbg src = OK (t, []) ->
  forall w s kws e, In (w, s, kws, e) enclosing_tags -> forall cs, subtree (Node w cs) t ->
  enclosed s kws e cs \/ short_form w cs.
Proof.
  intros dbg src t HP w s kws e Hin cs Hs.
  assert (Hw : w <> TWIG_ARROW_FUNCTION) by (intros ->; cbn [In enclosing_tags] in Hin; intuition discriminate).
  destruct (wf_node dbg src t HP w cs Hw Hs) as [C A]. unfold conforms in C.
  cbn [In enclosing_tags] in Hin.
  repeat (destruct Hin as [Hin|Hin]; [injection Hin as <- <- <- <-|]); [..|destruct Hin]; cbn [schema] in C;
    try (left; eapply enclosed_of; [exact HP|exact Hs|exact Hw|discriminate| |reflexivity];
         exists [Nd BODY]; rewrite (wrapped_nodes _ _ _ C); reflexivity).
  - (* block *)
    cbn [agrees] in A. destruct C as [(x & E & [<-|[]])|C].
    + right. left. split; [reflexivity|]. pose proof (nodes_content cs) as Hn. pose proof (nodes_nodes cs) as Hf. rewrite E in Hn. cbn [filter] in Hn.
      destruct (nodes cs) as [|a [|? ?]]; try discriminate Hn. injection Hn as Hk.
      inversion Hf as [|? ? (k & l & ->) _]; subst. cbn [tree_kind] in Hk. subst k. exists l. split; [reflexivity|exact A].
    + left. eapply enclosed_named; [exact HP|exact Hs|discriminate|now apply wrapped_nodes| |reflexivity].
      apply wrapped_nodes in C. pose proof (nodes_content cs) as Hn. rewrite C in Hn. cbn [filter] in Hn.
      destruct (nodes cs) as [|a [|b [|c [|? ?]]]]; try discriminate Hn. apply A.
  - (* if *)
    left. eapply enclosed_of; [exact HP|exact Hs|exact Hw|discriminate| |reflexivity].
    destruct C as (x1 & y1 & -> & (s1 & -> & [<-|[]]) & (x2 & y2 & -> & (s2 & -> & [<-|[]]) & (x3 & y3 & -> & Hm & (s3 & -> & [<-|[]])))).
    cbn [app filter is_node]. rewrite filter_app. cbn [filter is_node]. eexists (Nd BODY :: _). reflexivity.
  - (* set *)
    cbn [agrees] in A. destruct C as [(x & E & [<-|[]])|C].
    + right. right. split; [reflexivity|]. pose proof (nodes_content cs) as Hn. pose proof (nodes_nodes cs) as Hf. rewrite E in Hn. cbn [filter] in Hn.
      destruct (nodes cs) as [|a [|? ?]]; try discriminate Hn. injection Hn as Hk.
      inversion Hf as [|? ? (k & l & ->) _]; subst. cbn [tree_kind] in Hk. subst k. destruct A as (a & A1 & A2 & A3).
      cbn [children] in A1. unfold has in A3. destruct a as [k' w'|k' l']; cbn [tree_kind children] in *; [destruct A3|subst k'].
      exists l, l'. auto.
    + left. eapply enclosed_of; [exact HP|exact Hs|exact Hw|discriminate| |reflexivity].
      exists [Nd BODY]. rewrite (wrapped_nodes _ _ _ C). reflexivity.
  - (* for *)
    left. eapply enclosed_of; [exact HP|exact Hs|exact Hw|discriminate| |reflexivity].
    destruct C as (x1 & y1 & -> & (s1 & -> & [<-|[]]) & (x2 & y2 & -> & (s2 & -> & [<-|[]]) & (x3 & y3 & -> & Hm & (s3 & -> & [<-|[]])))).
    cbn [app filter is_node]. rewrite filter_app. cbn [filter is_node]. eexists (Nd BODY :: _). reflexivity.
  - (* macro *)
    left. eapply enclosed_named; [exact HP|exact Hs|discriminate|now apply wrapped_nodes| |reflexivity].
    cbn [agrees] in A. destruct (nodes cs) as [|a [|b [|c [|? ?]]]]; try destruct A. exists x. auto.
Qed.

(** Three levels of enclosing tags, one short form. *)
Definition enclosing_sample : text := txt
  "{% block a %}{% if x %}{% set y = 1 %}{% else %}{%- for i in x -%}{{ i }}{% endfor %}{% endif %}{% endblock a %}"%string.
Example C13_case : exists t, parse_src true enclosing_sample = OK (t, []) /\
  map (fun t => (tree_kind t, map tree_kind (nodes (children t))))
    (filter (fun t => existsb (fun x => kind_eqb (tree_kind t) (fst (fst (fst x)))) enclosing_tags) (subtrees t)) =
  [(TWIG_BLOCK, [TWIG_STARTING_BLOCK; BODY; TWIG_ENDING_BLOCK]);
   (TWIG_IF, [TWIG_IF_BLOCK; BODY; TWIG_ELSE_BLOCK; BODY; TWIG_ENDIF_BLOCK]);
   (TWIG_SET, [TWIG_SET_BLOCK]);
   (TWIG_FOR, [TWIG_FOR_BLOCK; BODY; TWIG_ENDFOR_BLOCK])].
Proof. eexists. split; vm_compute; reflexivity. Qed.

Print Assumptions C12_matched_tags.
Print Assumptions C13_closed_tags.
Print Assumptions C44_error_free_well_formed.
Print Assumptions C44_error_free_well_formed_release.
Print Assumptions C44_no_error_nodes.
Print Assumptions C44_arrow_token_refuted.
