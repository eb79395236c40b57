(** Total correctness of the parser's primitives and methods: rules for every primitive on
    the tree machine and specifications of the methods in ParserApi.v.  Used to show that
    the grammar terminates, keeps its markers balanced, and panics only at known places. *)
From Coq Require Import NArith String Bool Arith Lia List.
Import ListNotations.
From Verif Require Import Text Kind Regex Lexer LexerProofs ParserApi GrammarExpr GrammarTags GrammarHtml
  Machine TreeMachine Simulation TreeSpec WpBase.
Local Notation length := List.length (only parsing).
Local Open Scope string_scope.
Local Open Scope list_scope.
Local Open Scope prog_scope.

(** * Trivia *)

Definition nf (r : list token) : Prop := drop_trivia r = r.

Lemma drop_idem : forall r, drop_trivia (drop_trivia r) = drop_trivia r.
Proof.
  induction r as [|t r IH]; [reflexivity|]. cbn [drop_trivia].
  destruct (is_trivia (tk_kind t)) eqn:E; [exact IH|]. cbn [drop_trivia]. now rewrite E.
Qed.
Lemma nf_drop : forall r, nf (drop_trivia r).
Proof. exact drop_idem. Qed.
Lemma nf_nil : nf [].
Proof. reflexivity. Qed.
Lemma drop_length : forall r, length (drop_trivia r) <= length r.
Proof.
  induction r as [|t r IH]; [cbn; lia|]. cbn [drop_trivia].
  destruct (is_trivia (tk_kind t)); cbn [length]; lia.
Qed.
Lemma drop_suffix : forall r, exists p, r = p ++ drop_trivia r.
Proof. intros r. exists (take_trivia r). symmetry. apply take_drop_trivia. Qed.
Lemma nf_cons : forall t r, nf (t :: r) -> is_trivia (tk_kind t) = false.
Proof.
  intros t r H. unfold nf in H. cbn [drop_trivia] in H.
  destruct (is_trivia (tk_kind t)); [|reflexivity].
  pose proof (drop_length r) as L. rewrite H in L. cbn [length] in L. lia.
Qed.
Lemma drop_nontriv : forall r, nontriv r <> [] -> drop_trivia r <> [].
Proof.
  induction r as [|t r IH]; [auto|]. unfold nontriv. cbn [filter drop_trivia].
  destruct (is_trivia (tk_kind t)); cbn [negb]; [exact IH|discriminate].
Qed.

(** * Ends *)

(** Kinds of tokens that no recovery inside an expression skips. *)
Definition closers : list kind :=
  TWIG_VAR_CLOSE_SET ++ TWIG_BLOCK_CLOSE_SET ++ [TK_GREATER_THAN; TK_CLOSE_CURLY; TK_CLOSE_SQUARE].
Definition closers_in (set : list kind) : bool := forallb (fun k => mem_kind k set) closers.
Definition no_closer (ks : list kind) : bool := forallb (fun k => negb (mem_kind k closers)) ks.

Definition is_closer (t : token) : bool :=
  mem_kind (tk_kind t) closers && negb (rfull TWIG_NAME_REGEX (tk_text t)).
Lemma not_closer_kind : forall t, mem_kind (tk_kind t) closers = false -> is_closer t = false.
Proof. intros t H. unfold is_closer. now rewrite H. Qed.
Lemma not_closer_name : forall t, rfull TWIG_NAME_REGEX (tk_text t) = true -> is_closer t = false.
Proof. intros t H. unfold is_closer. rewrite H. apply andb_false_r. Qed.

(** The last token that is not trivia is a closer. *)
Definition ge (r : list token) : Prop :=
  exists a t b, r = a ++ t :: b /\ is_closer t = true /\
                is_trivia (tk_kind t) = false /\ Forall (fun x => is_trivia (tk_kind x) = true) b.

Lemma triv_drop : forall b, Forall (fun x => is_trivia (tk_kind x) = true) b -> drop_trivia b = [].
Proof. induction 1 as [|x b Hx Hb IH]; [reflexivity|]. cbn [drop_trivia]. now rewrite Hx. Qed.

Lemma ge_drop_ne : forall r, ge r -> drop_trivia r <> [].
Proof.
  intros r (a & t & b & -> & _ & Ht & _). induction a as [|x a IH]; cbn [app drop_trivia].
  - rewrite Ht. discriminate.
  - destruct (is_trivia (tk_kind x)); [exact IH|discriminate].
Qed.

Lemma ge_suffix : forall p r, drop_trivia r <> [] -> ge (p ++ r) -> ge r.
Proof.
  induction p as [|x p IH]; intros r Hr H; [exact H|]. apply IH; [exact Hr|].
  destruct H as (a & t & b & E & Hc & Ht & Hb). destruct a as [|y a]; cbn [app] in E.
  - injection E as -> E. exfalso. apply Hr. rewrite <- E in Hb. apply Forall_app in Hb as [_ Hb].
    now apply triv_drop.
  - injection E as -> E. exists a, t, b. auto.
Qed.

Lemma ge_drop : forall r, ge r -> ge (drop_trivia r).
Proof.
  intros r H. destruct (drop_suffix r) as [p E]. pose proof (ge_drop_ne r H) as Hn. rewrite E in H.
  eapply ge_suffix; [|exact H]. rewrite drop_idem. exact Hn.
Qed.

Lemma ge_cons : forall t r, is_closer t = false -> ge (t :: r) -> ge r.
Proof.
  intros t r Ht (a & u & b & E & Hc & Hu & Hb). destruct a as [|y a]; cbn [app] in E.
  - injection E as -> E. congruence.
  - injection E as -> E. exists a, u, b. auto.
Qed.

Lemma mem_kind_in : forall k l, mem_kind k l = true <-> In k l.
Proof.
  intros k l. unfold mem_kind. rewrite existsb_exists. split.
  - intros (x & Hx & E). apply kind_eqb_eq in E. now subst.
  - intros H. exists k. split; [exact H|]. apply kind_eqb_refl.
Qed.

Lemma closers_in_spec : forall set k, closers_in set = true -> mem_kind k set = false ->
  mem_kind k closers = false.
Proof.
  intros set k H Hk. destruct (mem_kind k closers) eqn:E; [|reflexivity].
  unfold closers_in in H. rewrite forallb_forall in H. apply mem_kind_in in E. rewrite H in Hk; auto.
Qed.
Lemma no_closer_spec : forall ks k, no_closer ks = true -> mem_kind k ks = true ->
  mem_kind k closers = false.
Proof.
  intros ks k H Hk. unfold no_closer in H. rewrite forallb_forall in H. apply mem_kind_in in Hk.
  apply H in Hk. now apply negb_true_iff in Hk.
Qed.

(** * Markers *)

Definition ids (its : list item) : list nat :=
  flat_map (fun i => match i with INode m _ => [m] | _ => [] end) its.
Lemma ids_app : forall a b, ids (a ++ b) = ids a ++ ids b.
Proof. intros; apply flat_map_app. Qed.

Lemma split_node_tail : forall c its tail, In c (ids tail) ->
  exists o nd recent, split_node c (its ++ tail) = Some (its ++ o, nd, recent) /\ tail = o ++ INode c nd :: recent.
Proof.
  intros c its tail H. induction its as [|i its IH].
  - cbn [app]. induction tail as [|i tail IH]; [contradiction|]. cbn [split_node].
    destruct (split_node c tail) as [[[a t] b]|] eqn:E.
    + apply split_node_spec in E. subst. exists (i :: a), t, b. auto.
    + unfold ids in H. cbn [flat_map] in H. apply in_app_iff in H. destruct H as [H|H].
      * destruct i; try contradiction. cbn in H. destruct H as [->|[]].
        rewrite Nat.eqb_refl. exists [], t, tail. auto.
      * destruct (IH H) as (o & nd & recent & Ho & _). congruence.
  - destruct IH as (o & nd & recent & Ho & Ht). exists o, nd, recent. cbn [app split_node]. rewrite Ho. auto.
Qed.

(** * Leaves *)

Fixpoint frames (st : list (nat * list item)) (its : list item) : list tree :=
  match st with
  | [] => trees its
  | (_, saved) :: st' => frames st' saved ++ trees its
  end.

Lemma frames_app : forall st a b, frames st (a ++ b) = frames st a ++ trees b.
Proof. intros [|[m saved] st] a b; cbn [frames]; rewrite trees_app; [reflexivity|]. now rewrite app_assoc. Qed.

Lemma merges_app : forall l1 t1 l2 t2, merges l1 t1 -> merges l2 t2 -> merges (l1 ++ l2) (t1 ++ t2).
Proof. induction 1; intros H2; cbn [app]; [exact H2|constructor; auto|constructor; auto]. Qed.
Lemma merges_leaf : forall ts, merges (flat_map leaves (map leaf ts)) ts.
Proof.
  induction ts as [|t ts IH]; [constructor|]. cbn [map flat_map leaf leaves app]. constructor; auto.
Qed.
Lemma merges_one : forall k t, k = tk_kind t \/ (k = TK_WORD /\ is_trivia (tk_kind t) = false) ->
  merges [(k, concat (map tk_text [t]))] [t].
Proof. intros k t H. cbn [map concat]. rewrite app_nil_r. constructor; [exact H|constructor]. Qed.

Lemma merges_text : forall ls ts, merges ls ts -> concat (map snd ls) = concat (map tk_text ts).
Proof.
  induction 1 as [|k t ls ts Hk H IH|c t ls ts Hc Hl H IH]; cbn [map concat snd]; [reflexivity| |]; rewrite IH; [reflexivity|].
  now rewrite app_assoc.
Qed.

(** * Trivia stays together *)

(** What lies in front of a position of a tree: text that is not trivia or nothing, a
    sibling that is trivia, or trivia from which a node begins or ends on the way here. *)
Inductive near : Set := Apart | Beside | Behind.
Definition across (s : near) : near := match s with Apart => Apart | _ => Behind end.

(** No trivia follows other trivia across the border of a node. *)
Fixpoint scan (t : tree) (s : near) : option near :=
  match t with
  | Leaf k _ =>
    if is_trivia k then match s with Behind => None | _ => Some Beside end else Some Apart
  | Node _ cs =>
    option_map across
      ((fix go l s := match l with
                      | [] => Some s
                      | c :: l' => match scan c s with Some s' => go l' s' | None => None end
                      end) cs (across s))
  end.
Fixpoint scans (l : list tree) (s : near) : option near :=
  match l with
  | [] => Some s
  | c :: l' => match scan c s with Some s' => scans l' s' | None => None end
  end.
Lemma scan_node : forall k cs s, scan (Node k cs) s = option_map across (scans cs (across s)).
Proof. reflexivity. Qed.
Lemma scans_app : forall a b s, scans (a ++ b) s = match scans a s with Some s' => scans b s' | None => None end.
Proof.
  induction a as [|c a IH]; intros b s; [reflexivity|]. cbn [app scans].
  destruct (scan c s); [apply IH|reflexivity].
Qed.
Lemma across_idem : forall s, across (across s) = across s.
Proof. now destruct s. Qed.

Definition scan_item (i : item) (s : near) : option near :=
  match i with
  | INode _ (Node _ _ as t) | ILock (Node _ _ as t) => scan t s
  | INode _ _ | ILock _ => None
  | _ => scans (item_trees i) s
  end.
Fixpoint scan_items (its : list item) (s : near) : option near :=
  match its with
  | [] => Some s
  | i :: l => match scan_item i s with Some s' => scan_items l s' | None => None end
  end.
Fixpoint scan_frames (st : list (nat * list item)) (its : list item) : option near :=
  match st with
  | [] => scan_items its Apart
  | (_, saved) :: st' =>
    match scan_frames st' saved with Some s => scan_items its (across s) | None => None end
  end.

Lemma scan_items_app : forall a b s,
  scan_items (a ++ b) s = match scan_items a s with Some s' => scan_items b s' | None => None end.
Proof.
  induction a as [|c a IH]; intros b s; [reflexivity|]. cbn [app scan_items].
  destruct (scan_item c s); [apply IH|reflexivity].
Qed.
Lemma scan_frames_app : forall st a b,
  scan_frames st (a ++ b) = match scan_frames st a with Some s => scan_items b s | None => None end.
Proof.
  intros [|[m saved] st] a b; cbn [scan_frames]; [apply scan_items_app|].
  destruct (scan_frames st saved); [apply scan_items_app|reflexivity].
Qed.
Lemma scan_items_trees : forall its s s', scan_items its s = Some s' -> scans (trees its) s = Some s'.
Proof.
  induction its as [|i its IH]; intros s s' H; [exact H|]. cbn [scan_items] in H.
  unfold trees in *. cbn [flat_map]. rewrite scans_app.
  destruct (scan_item i s) as [s1|] eqn:E; [|discriminate].
  assert (Ei : scans (item_trees i) s = Some s1).
  { destruct i as [? ? ?|?|? [|]|[|]]; cbn [scan_item item_trees scans] in *; try exact E; try discriminate;
      now rewrite E. }
  rewrite Ei. now apply IH.
Qed.
Lemma scan_items_lock : forall its s, scan_items (map lock its) s = scan_items its s.
Proof.
  induction its as [|i its IH]; intros s; [reflexivity|]. cbn [map scan_items].
  assert (E : scan_item (lock i) s = scan_item i s) by now destruct i.
  rewrite E. destruct (scan_item i s); auto.
Qed.

(** Tokens of trivia, and what a run of them does. *)
Lemma scans_trivia : forall tr s, Forall (fun x => is_trivia (tk_kind x) = true) tr ->
  (tr <> [] -> s <> Behind) ->
  scans (map leaf tr) s = Some (match tr with [] => s | _ => Beside end).
Proof.
  induction tr as [|x tr IH]; intros s Ht Hs; [reflexivity|]. inversion Ht as [|? ? Hx Hr]; subst.
  cbn [map scans scan leaf]. rewrite Hx. destruct s; try (exfalso; apply Hs; [discriminate|reflexivity]).
  - rewrite IH; [now destruct tr|exact Hr|discriminate].
  - rewrite IH; [now destruct tr|exact Hr|discriminate].
Qed.
Lemma take_all_trivia : forall l, Forall (fun x => is_trivia (tk_kind x) = true) (take_trivia l).
Proof.
  induction l as [|t l IH]; cbn [take_trivia]; [constructor|].
  destruct (is_trivia (tk_kind t)) eqn:E; constructor; auto.
Qed.
Lemma take_drop_nil : forall l, take_trivia (drop_trivia l) = [].
Proof.
  induction l as [|t l IH]; [reflexivity|]. cbn [drop_trivia].
  destruct (is_trivia (tk_kind t)) eqn:E; [exact IH|]. cbn [take_trivia]. now rewrite E.
Qed.

(** Which assertions of the grammar are evaluated: those of a debug build, those of a release
    build (none), or those of a debug build without the effect of looking at the next token, and
    with the requirement that there would be none.  The third is a tool for C69: a run that comes
    to an end there is a run of both builds. *)
Inductive mode : Set := Debug | Release | Both.
Definition arrowed (site : site) : bool := match site with SArrow => true | _ => false end.
Definition no_trivia (r : list token) : bool := match r with [] => true | t :: _ => negb (is_trivia (tk_kind t)) end.
Definition bstep (d : mode) (T : list token) (B : Set) (o : op B) (s : tstate) : res (B * tstate) :=
  match o in op B return res (B * tstate) -> res (B * tstate) with
  | DAssert site f => fun _ =>
    let rest' := drop_trivia (t_rest s) in
    match d with
    | Release => OK (tt, s)
    | Debug => if f rest' then OK (tt, mkT rest' (t_snk s) (t_items s) (t_stack s) (t_nev s) (t_errs s)) else Panicked (PDebugAssert site)
    | Both => if f rest' then if arrowed site || no_trivia (t_rest s) then OK (tt, s) else Panicked PStuck
              else Panicked (PDebugAssert site)
    end
  | _ => fun r => r
  end (tstep false false T B o s).
Definition build (dbg : bool) : mode := if dbg then Debug else Release.
Lemma bstep_build dbg T (B : Set) (o : op B) s : bstep (build dbg) T B o s = tstep false dbg T B o s.
Proof. destruct dbg, o; reflexivity. Qed.

Section Total.
  Context (dbg : mode) (T : list token).

  (** An error has the range and, unless it reports the end of the file, the kind of a token
      of the source. *)
  Definition err_ok (e : perror) : Prop :=
    exists t, In t T /\ err_start e = tk_start t /\ err_end e = tk_end t /\
              (err_found e = None \/ err_found e = Some (tk_kind t)).
  Definition tok_ok (u : token) : Prop :=
    exists t, In t T /\ tk_start u = tk_start t /\ tk_end u = tk_end t /\ tk_kind u = tk_kind t.

  Record wf (s : tstate) : Prop := mkWf {
    wf_sync : drop_trivia (t_snk s) = drop_trivia (t_rest s);
    wf_rest : exists pre, T = pre ++ t_rest s;
    wf_errs : Forall err_ok (t_errs s);
    wf_leaves : exists pre, T = pre ++ t_snk s /\
                  merges (flat_map leaves (frames (t_stack s) (t_items s))) pre;
    wf_tidy : exists p, scan_frames (t_stack s) (t_items s) = Some p /\
                (p <> Apart -> take_trivia (t_snk s) = []) }.

  (** A token together with the trivia in front of it keeps trivia together. *)
  Lemma tidy_tok : forall st its snk k us,
    (exists p, scan_frames st its = Some p /\ (p <> Apart -> take_trivia snk = [])) ->
    is_trivia k = false ->
    scan_frames st (its ++ [ITok (take_trivia snk) k us]) = Some Apart.
  Proof.
    intros st its snk k us (p & E & H) Hk. rewrite scan_frames_app, E. cbn [scan_items scan_item item_trees].
    rewrite scans_app, scans_trivia.
    - cbn [scans scan]. now rewrite Hk.
    - apply take_all_trivia.
    - intros Hn Hp. subst p. apply Hn, H. discriminate.
  Qed.

  (** The only panics that can happen: an arrow function's bump or raw text's bump at the
      end of a source that does not end in a closer, and the assertion of an arrow
      function in debug builds. *)
  Definition allowed (q : panic) : Prop :=
    (dbg <> Release /\ q = PDebugAssert SArrow) \/
    (~ ge T /\ (q = PBump SArrow \/ q = PBump SRawInner \/ q = PBump SRawText)).

  Notation wp := (wp (bstep dbg T) wf allowed False).
  Notation wpo := (wpo (bstep dbg T) wf allowed False).

  Lemma wp_suffix : forall (A : Set) n (p : prog A) r its st (Q : post A),
    ((exists pre, T = pre ++ r) -> wp n p r its st Q) -> wp n p r its st Q.
  Proof. intros A n p r its st Q H s Hi Hr Hs Ht. apply H; auto. rewrite <- Hr. apply Hi. Qed.

  Lemma suffix_drop : forall r, (exists pre, T = pre ++ r) -> exists pre, T = pre ++ drop_trivia r.
  Proof.
    intros r (p & ->). destruct (drop_suffix r) as (p' & E). exists (p ++ p').
    rewrite <- app_assoc. now rewrite <- E.
  Qed.

  Lemma suffix_in : forall t r, (exists pre, T = pre ++ t :: r) -> In t T.
  Proof. intros t r (p & ->). apply in_app_iff. right. now left. Qed.

  Lemma wpo_look : forall r its st (Q : post (list token)),
    Q (drop_trivia r) (drop_trivia r) its st -> wpo Look r its st Q.
  Proof.
    intros r its st Q H s [H1 H2 H3 H4 H5] <- <- <-. cbn. split; [|exact H].
    constructor; cbn [t_rest t_snk t_items t_stack t_errs]; auto.
    - now rewrite drop_idem.
    - now apply suffix_drop.
  Qed.

  Lemma wp_look : forall (A : Set) n (f : list token -> A) r its st (Q : post A),
    (forall r', drop_trivia r = r' -> nf r' -> length r' <= length r -> Q (f r') r' its st) ->
    wp n (look f) r its st Q.
  Proof.
    intros A n f r its st Q H. apply wp_op. apply wpo_look. apply wp_ret.
    apply H; auto using nf_drop, drop_length.
  Qed.
  Lemma wp_look_nf : forall (A : Set) n (f : list token -> A) r its st (Q : post A),
    nf r -> Q (f r) r its st -> wp n (look f) r its st Q.
  Proof. intros A n f r its st Q Hn H. apply wp_look. intros r' Hr _ _. rewrite Hn in Hr. now subst. Qed.

  Lemma wp_get_pos : forall n r its st (Q : post nat),
    (length r <= length T -> Q (length T - length r) r its st) -> wp n get_pos r its st Q.
  Proof.
    intros n r its st Q H. apply wp_prim. intros s Hi <- <- <-. cbn. split; [exact Hi|].
    apply H. destruct (wf_rest s Hi) as (p & ->). rewrite app_length. lia.
  Qed.

  Lemma wpo_bump : forall site as_ r its st (Q : post token),
    (as_ = None \/ as_ = Some TK_WORD) ->
    (drop_trivia r = [] -> allowed (PBump site)) ->
    (forall t ts tr us, drop_trivia r = t :: ts -> length ts < length r -> tok_ok t ->
       let k := match as_ with Some k => k | None => tk_kind t end in
       Q (mkTok k (tk_text t) (tk_start t) (tk_end t)) ts (its ++ [ITok tr k us]) st) ->
    wpo (BumpAs site as_) r its st Q.
  Proof.
    intros site as_ r its st Q Has Hp H s [H1 H2 H3 H4 H5] <- <- <-. cbn [bstep tstep].
    pose proof (drop_length (t_rest s)) as HL.
    destruct (drop_trivia (t_rest s)) as [|t ts] eqn:E; [cbn; auto|]. rewrite H1.
    cbn [holds length] in *. pose proof (suffix_drop _ H2) as H2'. rewrite E in H2'. split.
    - constructor; cbn [t_rest t_snk t_items t_stack t_errs].
      + reflexivity.
      + destruct H2' as (p & Hp'). exists (p ++ [t]). now rewrite <- app_assoc.
      + exact H3.
      + destruct H4 as (p & Hp' & Hm). exists (p ++ take_trivia (t_snk s) ++ [t]). split.
        * rewrite Hp'. rewrite <- (take_drop_trivia (t_snk s)) at 1. rewrite H1, <- !app_assoc. reflexivity.
        * rewrite frames_app, flat_map_app. apply merges_app; [exact Hm|].
          cbn [trees flat_map item_trees]. rewrite app_nil_r, flat_map_app.
          apply merges_app; [apply merges_leaf|]. cbn [flat_map leaves app]. apply merges_one.
          pose proof (nf_drop (t_rest s)) as Hn. rewrite E in Hn. apply nf_cons in Hn. destruct Has; subst as_; auto.
      + exists Apart. split; [|congruence]. apply tidy_tok; [exact H5|].
        pose proof (nf_drop (t_rest s)) as Hn. rewrite E in Hn. apply nf_cons in Hn.
        destruct Has; subst as_; [exact Hn|reflexivity].
    - apply H; [reflexivity|cbn [t_rest length]; lia|]. exists t. repeat split; auto. eapply suffix_in; eauto.
  Qed.

  Lemma wp_bump : forall n r its st (Q : post token), drop_trivia r <> [] ->
    (forall t ts tr us, drop_trivia r = t :: ts -> length ts < length r -> tok_ok t ->
       Q t ts (its ++ [ITok tr (tk_kind t) us]) st) ->
    wp n bump r its st Q.
  Proof.
    intros n r its st Q Hne H. apply wp_prim. apply wpo_bump; [auto|congruence|].
    intros t ts tr us E L Ht. cbn. destruct t. eapply H; eauto.
  Qed.
  Lemma wp_bump_site : forall site n r its st (Q : post token),
    (drop_trivia r = [] -> allowed (PBump site)) ->
    (forall t ts tr us, drop_trivia r = t :: ts -> length ts < length r -> tok_ok t ->
       Q t ts (its ++ [ITok tr (tk_kind t) us]) st) ->
    wp n (bump_site site) r its st Q.
  Proof.
    intros site n r its st Q Hne H. apply wp_prim. apply wpo_bump; [auto|exact Hne|].
    intros t ts tr us E L Ht. cbn. destruct t. eapply H; eauto.
  Qed.
  Lemma wp_bump_as : forall n r its st (Q : post token), drop_trivia r <> [] ->
    (forall t ts tr us, drop_trivia r = t :: ts -> length ts < length r ->
       Q (mkTok TK_WORD (tk_text t) (tk_start t) (tk_end t)) ts (its ++ [ITok tr TK_WORD us]) st) ->
    wp n (bump_as TK_WORD) r its st Q.
  Proof.
    intros n r its st Q Hne H. apply wp_prim. apply wpo_bump; [auto|congruence|].
    intros t ts tr us E L Ht. eapply H; eauto.
  Qed.

  Lemma wp_bump_n : forall n r its st (Q : post (list token)) c t ts,
    drop_trivia r = c :: t :: ts -> tk_kind c = TK_COLON -> letter_first (tk_text t) ->
    (forall tr us, length ts < length r -> Q [c; t] ts (its ++ [ITok tr TK_WORD us]) st) ->
    wp n (bump_next_n_as 2 TK_WORD) r its st Q.
  Proof.
    intros n r its st Q c t ts E Hc Hl H. apply wp_prim. intros s [H1 H2 H3 H4 H5] <- <- <-. cbn [bstep tstep].
    pose proof (drop_length (t_rest s)) as HL. pose proof (suffix_drop _ H2) as H2'.
    rewrite H1, E in *. cbn [firstn skipn length Nat.eqb Nat.leb holds] in *. split.
    - constructor; cbn [t_rest t_snk t_items t_stack t_errs].
      + reflexivity.
      + destruct H2' as (p & Hp). exists (p ++ [c; t]). now rewrite <- app_assoc.
      + exact H3.
      + destruct H4 as (p & Hp' & Hmm).
        exists (p ++ take_trivia (t_snk s) ++ [c; t]). split.
        * rewrite Hp'. rewrite <- (take_drop_trivia (t_snk s)) at 1.
          rewrite H1, <- !app_assoc. reflexivity.
        * rewrite frames_app, flat_map_app. apply merges_app; [exact Hmm|].
          cbn [trees flat_map item_trees]. rewrite app_nil_r, flat_map_app.
          apply merges_app; [apply merges_leaf|]. cbn [flat_map leaves app map concat]. rewrite app_nil_r.
          constructor; [exact Hc|exact Hl|constructor].
      + exists Apart. split; [|congruence]. apply tidy_tok; [exact H5|reflexivity].
    - apply H. cbn [t_rest]. lia.
  Qed.

  Lemma wp_trivia : forall n r its st (Q : post unit),
    (forall tr, Q tt r (its ++ [ITriv tr]) st) -> wp n explicitly_consume_trivia r its st Q.
  Proof.
    intros n r its st Q H. apply wp_prim. intros s [H1 H2 H3 H4 H5] <- <- <-. cbn [bstep tstep holds]. split; [|apply H].
    constructor; cbn [t_rest t_snk t_items t_stack t_errs]; auto.
    - now rewrite drop_idem.
    - destruct H4 as (p & Hp' & Hm). exists (p ++ take_trivia (t_snk s)). split.
      + now rewrite <- app_assoc, take_drop_trivia.
      + rewrite frames_app, flat_map_app. apply merges_app; [exact Hm|].
        cbn [trees flat_map item_trees]. rewrite app_nil_r. apply merges_leaf.
    - destruct H5 as (p & E & Hp). rewrite scan_frames_app, E. cbn [scan_items scan_item item_trees].
      rewrite scans_trivia; [|apply take_all_trivia|intros Hn X; subst p; apply Hn, Hp; discriminate].
      eexists. split; [reflexivity|]. intros _. apply take_drop_nil.
  Qed.

  Lemma wp_add_error_t : forall e n r its st (Q : post unit), T <> [] ->
    (forall r', drop_trivia r = r' -> nf r' -> length r' <= length r -> Q tt r' its st) ->
    wp n (add_error_t e) r its st Q.
  Proof.
    intros e n r its st Q HT H. apply wp_prim. intros s [H1 H2 H3 H4 H5] <- <- <-. cbn [bstep tstep].
    pose proof (suffix_drop _ H2) as H2'.
    assert (Hx : exists err, error_here T (drop_trivia (t_rest s)) e = OK err /\ err_ok err).
    { unfold error_here. destruct (drop_trivia (t_rest s)) as [|t ts] eqn:E.
      - destruct (rev T) as [|t l] eqn:Er.
        + apply (f_equal (@rev token)) in Er. rewrite rev_involutive in Er. contradiction.
        + eexists. split; [reflexivity|]. exists t. cbn. repeat split; auto.
          apply in_rev. rewrite Er. now left.
      - eexists. split; [reflexivity|]. exists t. cbn. repeat split; auto. eapply suffix_in; eauto. }
    destruct Hx as (err & -> & He). cbn [rbind holds]. split.
    - constructor; cbn [t_rest t_snk t_items t_stack t_errs]; auto.
      + now rewrite drop_idem.
      + apply Forall_app. split; [exact H3|]. constructor; [exact He|constructor].
    - cbn [t_rest t_items t_stack]. apply H; auto using nf_drop, drop_length.
  Qed.
  Lemma wp_add_error : forall e n r its st (Q : post unit), T <> [] ->
    (forall r', drop_trivia r = r' -> nf r' -> length r' <= length r -> Q tt r' its st) ->
    wp n (add_error e) r its st Q.
  Proof. intros e. apply wp_add_error_t. Qed.
  Lemma wp_add_error_at : forall e t n r its st (Q : post unit), tok_ok t -> Q tt r its st ->
    wp n (add_error_at e t) r its st Q.
  Proof.
    intros e t n r its st Q Ht H. apply wp_prim. intros s [H1 H2 H3 H4 H5] <- <- <-. cbn [bstep tstep holds]. split; auto.
    constructor; cbn [t_rest t_snk t_items t_stack t_errs]; auto. apply Forall_app. split; auto.
    constructor; [|constructor]. destruct Ht as (u & Hu & H6 & H7 & H8). exists u. cbn.
    repeat split; auto. right. congruence.
  Qed.

  Lemma wp_start : forall n r its st (Q : post nat),
    (forall m, Q m r [] ((m, its) :: st)) -> wp n start r its st Q.
  Proof.
    intros n r its st Q H. apply wp_prim. intros s [H1 H2 H3 H4 H5] <- <- <-. cbn [bstep tstep holds]. split; [|apply H].
    constructor; cbn [t_rest t_snk t_items t_stack t_errs]; auto.
    - cbn [frames trees flat_map]. now rewrite app_nil_r.
    - destruct H5 as (p & E & Hp). exists (across p). cbn [scan_frames scan_items]. rewrite E.
      split; [reflexivity|]. intros X. apply Hp. intros ->. now apply X.
  Qed.

  Lemma wp_complete : forall m k n r its saved st (Q : post nat),
    (forall t, Q m r (saved ++ [INode m t]) st) -> wp n (complete m k) r its ((m, saved) :: st) Q.
  Proof.
    intros m k n r its saved st Q H. apply wp_prim. intros s [H1 H2 H3 H4 H5] Hr Hs Ht. cbn [bstep tstep].
    rewrite Ht, Nat.eqb_refl. cbn [holds t_rest t_items t_stack]. rewrite Hr. split; [|apply H].
    rewrite Hr in *. constructor; cbn [t_rest t_snk t_items t_stack t_errs]; auto.
    - rewrite Ht, Hs in H4. rewrite Hs. cbn [frames] in H4. rewrite frames_app. cbn [trees flat_map item_trees].
      destruct H4 as (p & Hp & Hm). exists p. split; [exact Hp|].
      rewrite app_nil_r. rewrite flat_map_app in *. cbn [flat_map leaves]. now rewrite app_nil_r.
    - rewrite Ht, Hs in H5. rewrite Hs. destruct H5 as (p & E & Hp). cbn [scan_frames] in E.
      rewrite scan_frames_app. destruct (scan_frames st saved) as [p0|]; [|discriminate].
      cbn [scan_items scan_item]. rewrite scan_node, (scan_items_trees _ _ _ E).
      exists (across p). split; [reflexivity|]. intros X. apply Hp. intros ->. now apply X.
  Qed.

  Lemma frames_swap : forall st x y z,
    frames ((x, y) :: st) z = frames st (y ++ z).
  Proof. intros. cbn [frames]. now rewrite frames_app. Qed.

  Lemma wp_precede : forall c n r its tail st (Q : post nat), In c (ids tail) ->
    (forall m o nd recent, tail = o ++ INode c nd :: recent ->
       Q m r (ILock nd :: map lock recent) ((m, its ++ o) :: st)) ->
    wp n (precede c) r (its ++ tail) st Q.
  Proof.
    intros c n r its tail st Q Hc H. apply wp_prim. intros s [H1 H2 H3 H4 H5] Hr Hs Ht. cbn [bstep tstep].
    destruct (split_node_tail c its tail Hc) as (o & nd & recent & E & Htl). rewrite Hs, E.
    cbn [holds t_rest t_items t_stack]. rewrite Hr, Ht. split; [|now apply H].
    rewrite Hr in *. constructor; cbn [t_rest t_snk t_items t_stack t_errs]; auto.
    - destruct H4 as (p & Hp & Hm). exists p. split; [exact Hp|]. rewrite Hs, Ht, Htl in Hm.
      rewrite app_assoc, frames_app in Hm. cbn [frames].
      cbn [trees flat_map item_trees] in *. fold (trees (map lock recent)). fold (trees recent) in Hm.
      now rewrite trees_lock.
    - destruct H5 as (p & X & Hp). exists p. split; [|exact Hp]. rewrite Hs, Ht, Htl in X.
      rewrite app_assoc, scan_frames_app in X. cbn [scan_frames].
      destruct (scan_frames st (its ++ o)) as [p0|]; [|discriminate].
      cbn [scan_items scan_item] in *. destruct nd as [|k0 cs]; [discriminate|].
      rewrite scan_node, across_idem, <- (scan_node k0).
      destruct (scan (Node k0 cs) p0); [|discriminate]. now rewrite scan_items_lock.
  Qed.

  Lemma nf_no_trivia : forall r, nf r -> no_trivia r = true.
  Proof.
    intros [|t r] H; [reflexivity|]. cbn [no_trivia]. destruct (is_trivia (tk_kind t)) eqn:E; [|reflexivity].
    unfold nf in H. cbn [drop_trivia] in H. rewrite E in H. pose proof (drop_length r) as L. rewrite H in L. cbn [List.length] in L. lia.
  Qed.
  Lemma wp_dassert : forall (f : list token -> bool) n r its st (Q : post unit), nf r ->
    f r = true -> Q tt r its st -> wp n (debug_assert f) r its st Q.
  Proof.
    intros f n r its st Q Hn Hf H. apply wp_prim. intros s Hi Hr Hs Ht. cbn [bstep tstep]. rewrite Hr, Hn, Hf.
    destruct dbg; cbn [holds].
    - destruct Hi as [H1 H2 H3 H4 H5]. rewrite Hr in *. rewrite Hs, Ht in *.
      split; [|exact H]. constructor; cbn [t_rest t_snk t_items t_stack t_errs]; auto.
    - subst. auto.
    - rewrite (nf_no_trivia r Hn), orb_true_r. cbn [holds]. subst. auto.
  Qed.
  Lemma wp_dassert_arrow : forall (f : list token -> bool) n r its st (Q : post unit),
    (forall r', drop_trivia r' = drop_trivia r -> length r' <= length r ->
       Q tt r' its st) -> wp n (debug_assert_site SArrow f) r its st Q.
  Proof.
    intros f n r its st Q H. apply wp_prim. intros s Hi Hr Hs Ht. cbn [bstep tstep].
    destruct dbg eqn:D.
    - destruct (f (drop_trivia (t_rest s))); cbn [holds].
      + destruct Hi as [H1 H2 H3 H4 H5]. rewrite Hr in *. rewrite Hs, Ht in *. split.
        * constructor; cbn [t_rest t_snk t_items t_stack t_errs]; auto; [now rewrite drop_idem|now apply suffix_drop].
        * apply H; [apply drop_idem|apply drop_length].
      + left. split; [rewrite D; discriminate|reflexivity].
    - cbn [holds]. subst. split; auto.
    - destruct (f (drop_trivia (t_rest s))); cbn [arrowed orb holds].
      + subst. split; auto.
      + left. split; [rewrite D; discriminate|reflexivity].
  Qed.
End Total.
