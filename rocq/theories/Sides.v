(** Line breaks that belong to two sides of blocks, for the collisions of C23. *)
From Coq Require Import NArith String Bool Arith Lia Permutation List.
Import ListNotations.
From Verif Require Import Text Kind Regex Lexer LexerProofs ParserApi Machine TreeSpec.
From Verif Require PropFits Schema PropShape PropSkel PropLexer PropParser PropLines PropIndent PropFound3 PropEndings PropKeep Settled.
From Verif Require Import Red Typed Rule Naming Rules Check Process RedFacts WalkSpec PropProcess PropRun PropTree PropOff Found FoundRun PropFound PropFound5 Collide PropIgnored Chain.
Local Notation length := List.length (only parsing).
Local Open Scope list_scope.

(** * More about first and last children *)
Lemma tail_down a l : tail_of a l -> l = a \/ exists d, last_child a d /\ tail_of d l.
Proof.
  induction 1 as [|p z H IH F]; [auto|]. right. destruct IH as [->|(d & D & T)]; [exists z; split; [exact F|apply tail_self]|].
  exists d. split; [exact D|]. eapply tail_more; eauto.
Qed.
Lemma last_one p z z' : last_child p z -> last_child p z' -> z = z'.
Proof. intros (l & E) (l' & E'). rewrite E in E'. now apply app_inj_tail in E' as [_ ->]. Qed.
Lemma tails_meet a l l' : tail_of a l -> tail_of a l' -> tail_of l l' \/ tail_of l' l.
Proof.
  intros H. revert l'. induction H as [|p z H IH F]; intros l' H'; [auto|]. destruct (IH l' H') as [T|T].
  - apply tail_down in T as [->|(d & D & T)]; [right; eapply tail_more; [apply tail_self|exact F]|]. left. now rewrite (last_one _ _ _ F D).
  - right. eapply tail_more; eauto.
Qed.
Lemma leaf_childless e : is_node (el_tree e) = false -> children_with_tokens e = [].
Proof. unfold children_with_tokens. destruct (el_tree e); [reflexivity|discriminate]. Qed.
Lemma tail_leaf l l' : is_node (el_tree l) = false -> tail_of l l' -> l' = l.
Proof.
  intros N H. apply tail_down in H as [->|(d & (r & D) & _)]; [reflexivity|]. rewrite leaf_childless in D by exact N. destruct r; discriminate D.
Qed.
Lemma side_left c a y : side_by_side c a y -> In a (children_with_tokens c).
Proof. intros (l & r & ->). apply in_or_app. right. now left. Qed.
Lemma side_right c a y : side_by_side c a y -> In y (children_with_tokens c).
Proof. intros (l & r & ->). apply in_or_app. right. right. now left. Qed.
Lemma side_not_first p c a y : side_by_side c a y -> first_child p y -> False.
Proof.
  intros S (r' & E'). pose proof (PropFound3.child_parent _ _ (side_right _ _ _ S)) as I. destruct S as (l & r & E).
  assert (I' : In y (children_with_tokens p)) by (rewrite E'; now left). apply PropFound3.child_parent in I'. rewrite I in I'. injection I' as <-.
  pose proof (children_nodup c) as N. rewrite E in E'. rewrite E in N. change (l ++ a :: y :: r) with (l ++ [a] ++ y :: r) in *. rewrite app_assoc in *.
  change (y :: r') with ([] ++ y :: r') in E'. destruct (nodup_split _ _ _ _ _ N E') as [X _]. destruct l; discriminate X.
Qed.
Lemma side_same c a c' a' y : side_by_side c a y -> side_by_side c' a' y -> a = a'.
Proof.
  intros S S'. pose proof (PropFound3.child_parent _ _ (side_right _ _ _ S)) as I. pose proof (PropFound3.child_parent _ _ (side_right _ _ _ S')) as I'.
  rewrite I in I'. injection I' as <-. destruct S as (l & r & E), S' as (l' & r' & E').
  pose proof (children_nodup c) as N. rewrite E in E'. rewrite E in N. change (l ++ a :: y :: r) with (l ++ [a] ++ y :: r) in *.
  change (l' ++ a' :: y :: r') with (l' ++ [a'] ++ y :: r') in *. rewrite !app_assoc in *.
  destruct (nodup_split _ _ _ _ _ N E') as [X _]. now apply app_inj_tail in X as [_ ->].
Qed.
(** A token is the next one of one token only. *)
Lemma next_token_once t l l' x : In l (elements t) -> In l' (elements t) -> is_node (el_tree l) = false -> is_node (el_tree l') = false ->
  next_token l = Some x -> next_token l' = Some x -> l = l'.
Proof.
  intros Hl Hl' N N' E E'. destruct (next_token_chain t l x Hl E) as (a & c & y & T & S & _ & F).
  destruct (next_token_chain t l' x Hl' E') as (a' & c' & y' & T' & S' & _ & F').
  apply first_token_head in F, F'.
  assert (Y : y = y').
  { destruct (heads_linear _ _ _ F F') as [H|H]; inversion H as [|p z _ G]; subst; try reflexivity; exfalso;
      [exact (side_not_first _ _ _ _ S' G)|exact (side_not_first _ _ _ _ S G)]. }
  subst y'. rewrite <- (side_same _ _ _ _ _ S S') in T'. destruct (tails_meet _ _ _ T T') as [H|H]; apply tail_leaf in H; auto.
Qed.

(** * What begins and what ends a block *)
Section Tree.
  Context (dbg : bool) (src : text) (t : tree) (errs : list perror) (HP : parse_src dbg src = OK (t, errs)).

  Lemma calm_no_block e b : In e (elements t) -> calm e -> In b (preorder_elem e) -> a_node TWIG_BLOCK b -> False.
  Proof.
    intros He C Hb (cs & K). apply below_or in Hb as [->|Hb].
    - revert C. unfold calm, el_kind. rewrite K. cbn [tree_kind]. intros C.
      assert (X : existsb (kind_eqb TWIG_BLOCK) calm_kinds = true) by (apply existsb_exists; exists TWIG_BLOCK; split; [exact C|apply kind_eqb_refl]).
      vm_compute in X. discriminate X.
    - destruct (calm_below _ _ _ _ HP e He C b Hb) as [X _]; [now rewrite K|]. revert X. unfold calm, el_kind. rewrite K. cbn [tree_kind]. intros X0.
      assert (X : existsb (kind_eqb TWIG_BLOCK) calm_kinds = true) by (apply existsb_exists; exists TWIG_BLOCK; split; [exact X0|apply kind_eqb_refl]).
      vm_compute in X. discriminate X.
  Qed.
  Lemma calm_in e : (if in_dec kind_eq_dec (el_kind e) calm_kinds then true else false) = true -> calm e.
  Proof. destruct (in_dec kind_eq_dec (el_kind e) calm_kinds) as [H|H]; [auto|discriminate]. Qed.

  (** The lead of a block: its starting part or the comment before it. *)
  Definition lead_of (b lead : elem) : Prop :=
    (starting_block b = Some lead /\ In lead (children_with_tokens b) /\ el_kind lead = TWIG_STARTING_BLOCK) \/
    (a_comment lead /\ exists q l r, parent b = Some q /\ child_nodes q = l ++ lead :: b :: r).
  Lemma wanted_lead cf b x n : In b (elements t) -> wanted_at cf b Before x n -> exists lead, lead_of b lead /\ In lead (elements t) /\ calm lead /\ head_of lead x.
  Proof.
    intros Hb (p & be & af & pr & ne & st & en & A & _ & _ & S & _ & _ & lead & L & F & _). apply first_token_head in F. exists lead.
    destruct L as [(c & r & E & Cc & ->)|[-> _]].
    - split; [|split; [|split; [|exact F]]].
      + right. split; [exact Cc|]. destruct A as [P Q]. exists p, (rev r), af. split; [exact P|]. rewrite Q, E. cbn [rev]. now rewrite <- app_assoc.
      + apply (around_element t p b be af c Hb A). left. rewrite E. now left.
      + apply calm_in. destruct Cc as [-> | [-> | [-> | ->]]]; vm_compute; reflexivity.
    - pose proof (support_child_kind _ _ _ S) as K. pose proof (support_child_child _ _ _ S) as I. split; [|split; [|split; [|exact F]]].
      + left. auto.
      + eapply element_child; eauto.
      + apply calm_in. rewrite K. vm_compute. reflexivity.
  Qed.
  Lemma lead_inside e b lead : lead_of b lead -> below e lead -> In b (preorder_elem e).
  Proof.
    intros L B. apply below_parent in B as (p & P & Hp & _). destruct L as [(_ & I & _)|(_ & q & l & r & Q & E)].
    - apply PropFound3.child_parent in I. rewrite P in I. now injection I as <-.
    - assert (I : In lead (child_nodes q) /\ In b (child_nodes q)) by (rewrite E; split; apply in_or_app; right; [now left|right; now left]).
      destruct I as [I1 I2]. unfold child_nodes in I1, I2. apply filter_In in I1 as [I1 _]. apply filter_In in I2 as [I2 _].
      apply PropFound3.child_parent in I1. rewrite P in I1. injection I1 as <-. apply below_in. eapply parent_below; eauto.
  Qed.
  Lemma lead_once b b' lead : lead_of b lead -> lead_of b' lead -> b = b'.
  Proof.
    intros [(_ & I & K)|(C & q & l & r & Q & E)] [(_ & I' & K')|(C' & q' & l' & r' & Q' & E')].
    - apply PropFound3.child_parent in I, I'. rewrite I in I'. now injection I'.
    - destruct C' as [X|[X|[X|X]]]; rewrite K in X; discriminate X.
    - destruct C as [X|[X|[X|X]]]; rewrite K' in X; discriminate X.
    - assert (I : In lead (child_nodes q)) by (rewrite E; apply in_or_app; right; now left).
      assert (I' : In lead (child_nodes q')) by (rewrite E'; apply in_or_app; right; now left).
      unfold child_nodes in I, I'. apply filter_In in I as [I _]. apply filter_In in I' as [I' _].
      apply PropFound3.child_parent in I, I'. rewrite I in I'. injection I' as <-.
      assert (N : NoDup (child_nodes q)) by (apply NoDup_filter, children_nodup). rewrite E in E'. rewrite E in N.
      destruct (nodup_split _ _ _ _ _ N E') as [_ X]. now injection X.
  Qed.
  (** No token is the first one of two blocks. *)
  Lemma before_once cf b b' x n n' : In b (elements t) -> In b' (elements t) -> a_node TWIG_BLOCK b -> a_node TWIG_BLOCK b' ->
    wanted_at cf b Before x n -> wanted_at cf b' Before x n' -> b = b'.
  Proof.
    intros Hb Hb' K K' W W'. destruct (wanted_lead _ _ _ _ Hb W) as (L & LL & HL & CL & F). destruct (wanted_lead _ _ _ _ Hb' W') as (L' & LL' & HL' & CL' & F').
    destruct (heads_linear _ _ _ F F') as [H|H]; apply head_pre, below_or in H as [->|H].
    - eapply lead_once; eauto.
    - destruct (calm_no_block L b' HL CL (lead_inside _ _ _ LL' H) K').
    - eapply lead_once; eauto.
    - destruct (calm_no_block L' b HL' CL' (lead_inside _ _ _ LL H) K).
  Qed.
  Lemma wanted_end cf b x n : In b (elements t) -> wanted_at cf b After x n ->
    exists en l, In en (children_with_tokens b) /\ el_kind en = TWIG_ENDING_BLOCK /\ In en (elements t) /\ is_node (el_tree en) = true /\ calm en /\ tail_of en l /\
      In l (elements t) /\ is_node (el_tree l) = false /\ next_token l = Some x.
  Proof.
    intros Hb (p & be & af & pr & ne & st & en & A & _ & _ & _ & S & _ & (l & Hl & Hn) & _). exists en, l.
    pose proof (support_child_kind _ _ _ S) as K. pose proof (support_child_child _ _ _ S) as I. pose proof (element_child t b en Hb I) as He.
    destruct (last_token_in _ _ Hl) as [_ N].
    assert (Ne : is_node (el_tree en) = true) by (unfold ending_block, support_child, child_nodes in S; apply find_some in S as [S _]; now apply filter_In in S).
    repeat (split; [assumption|]). split; [apply calm_in; rewrite K; vm_compute; reflexivity|].
    split; [now apply last_token_tail|]. split; [|auto]. apply within_elements. eapply within_last_token; [apply elements_within; exact He|exact Hl].
  Qed.
  (** No token is the next one after two blocks. *)
  Lemma after_once cf b b' x n n' : In b (elements t) -> In b' (elements t) -> a_node TWIG_BLOCK b -> a_node TWIG_BLOCK b' ->
    wanted_at cf b After x n -> wanted_at cf b' After x n' -> b = b'.
  Proof.
    intros Hb Hb' K K' W W'. destruct (wanted_end _ _ _ _ Hb W) as (e & l & I & _ & He & _ & C & T & Hl & N & E).
    destruct (wanted_end _ _ _ _ Hb' W') as (e' & l' & I' & _ & He' & _ & C' & T' & Hl' & N' & E').
    pose proof (next_token_once t l l' x Hl Hl' N N' E E') as <-.
    assert (G : forall e b e', In e (elements t) -> calm e -> In e' (children_with_tokens b) -> below e e' -> a_node TWIG_BLOCK b -> False).
    { intros e0 b0 e0' H0 C0 I0 B0 K0. apply below_parent in B0 as (p & P & Hp & _). apply PropFound3.child_parent in I0. rewrite P in I0. injection I0 as <-.
      exact (calm_no_block e0 p H0 C0 Hp K0). }
    destruct (tails_linear _ _ _ T T') as [H|H]; apply tail_pre, below_or in H as [->|H].
    - apply PropFound3.child_parent in I, I'. rewrite I in I'. now injection I'.
    - destruct (G e b' e' He C I' H K').
    - apply PropFound3.child_parent in I, I'. rewrite I in I'. now injection I'.
    - destruct (G e' b e He' C' I H K).
  Qed.
End Tree.

(** * Templates without syntax errors *)
Definition model (k : kind) : option Schema.cm :=
  match k with
  | TWIG_ARROW_FUNCTION => Some (Schema.Seq (Schema.nd [TWIG_ARGUMENTS]) (Schema.Seq (Schema.opt Schema.AnyTok) (Schema.nd [TWIG_EXPRESSION])))
  | k => Schema.schema k
  end.
Definition comment_kinds : list kind := [TWIG_COMMENT; HTML_COMMENT; LUDTWIG_DIRECTIVE_FILE_IGNORE; LUDTWIG_DIRECTIVE_IGNORE].
Definition holders : list kind := [ROOT; BODY; HTML_ATTRIBUTE_LIST; HTML_STRING_INNER; HTML_RAW_TEXT].
Definition heads : list kind := TWIG_BLOCK :: HTML_STRING :: holders.
Definition mem (k : kind) (l : list kind) : bool := existsb (kind_eqb k) l.
Lemma mem_in k l : mem k l = true <-> In k l.
Proof.
  unfold mem. rewrite existsb_exists. split.
  - intros (x & H & E). apply kind_eqb_eq in E. now subst.
  - intros H. exists k. split; [exact H|apply kind_eqb_refl].
Qed.
Definition up_heads_ok (k : kind) : bool :=
  match model k with
  | Some m => forallb (fun k' => if mem k' (TWIG_STARTING_BLOCK :: comment_kinds ++ heads) then mem k heads else true) (firsts m)
  | None => true
  end.
Definition up_tails_ok (k : kind) : bool :=
  match model k with
  | Some m => forallb (fun k' => if mem k' (TWIG_BLOCK :: holders) then mem k holders || kind_eqb k HTML_STRING && kind_eqb k' HTML_STRING_INNER else true) (lasts m)
  | None => true
  end.
Definition sides_ok (k : kind) : bool :=
  match model k with
  | Some m => forallb (fun kk => if mem (fst kk) (TWIG_BLOCK :: TWIG_ENDING_BLOCK :: holders) && mem (snd kk) (TWIG_STARTING_BLOCK :: comment_kinds ++ heads)
                         then kind_eqb (fst kk) TWIG_BLOCK && mem (snd kk) (TWIG_BLOCK :: comment_kinds) || kind_eqb (fst kk) HTML_RAW_TEXT && kind_eqb (snd kk) HTML_RAW_TEXT
                         else true) (pairs m)
  | None => true
  end.
Lemma up_heads k m k' : model k = Some m -> In k' (firsts m) -> In k' (TWIG_STARTING_BLOCK :: comment_kinds ++ heads) -> In k heads.
Proof.
  intros M I H. assert (A : up_heads_ok k = true) by (destruct k; vm_compute; reflexivity). unfold up_heads_ok in A. rewrite M, forallb_forall in A.
  specialize (A k' I). rewrite (proj2 (mem_in _ _) H) in A. now apply mem_in in A.
Qed.
Lemma up_tails k m k' : model k = Some m -> In k' (lasts m) -> In k' (TWIG_BLOCK :: holders) -> In k holders \/ (k = HTML_STRING /\ k' = HTML_STRING_INNER).
Proof.
  intros M I H. assert (A : up_tails_ok k = true) by (destruct k; vm_compute; reflexivity). unfold up_tails_ok in A. rewrite M, forallb_forall in A.
  specialize (A k' I). rewrite (proj2 (mem_in _ _) H) in A. apply orb_true_iff in A as [A|A]; [left; now apply mem_in in A|].
  apply andb_true_iff in A as [A B]. apply kind_eqb_eq in A, B. auto.
Qed.
Lemma sides k m ka ky : model k = Some m -> In (ka, ky) (pairs m) -> In ka (TWIG_BLOCK :: TWIG_ENDING_BLOCK :: holders) ->
  In ky (TWIG_STARTING_BLOCK :: comment_kinds ++ heads) ->
  (ka = TWIG_BLOCK /\ In ky (TWIG_BLOCK :: comment_kinds)) \/ (ka = HTML_RAW_TEXT /\ ky = HTML_RAW_TEXT).
Proof.
  intros M I H H'. assert (A : sides_ok k = true) by (destruct k; vm_compute; reflexivity). unfold sides_ok in A. rewrite M, forallb_forall in A.
  specialize (A _ I). cbn [fst snd] in A. rewrite (proj2 (mem_in _ _) H), (proj2 (mem_in _ _) H') in A. cbn [andb] in A.
  apply orb_true_iff in A as [A|A]; apply andb_true_iff in A as [A B]; [left|right]; apply kind_eqb_eq in A; (split; [exact A|]);
    [now apply mem_in in B|now apply kind_eqb_eq in B].
Qed.

Lemma content_app l r : Schema.content (l ++ r) = Schema.content l ++ Schema.content r.
Proof. apply flat_map_app. Qed.
Lemma node_symbol e : is_node (el_tree e) = true -> Schema.symbol (el_tree e) = [Schema.Nd (el_kind e)].
Proof. unfold el_kind. destruct (el_tree e); [discriminate|reflexivity]. Qed.
Lemma node_is e : is_node (el_tree e) = true -> a_node (el_kind e) e.
Proof. unfold a_node, el_kind. destruct (el_tree e) as [|k cs]; [discriminate|eauto]. Qed.

Section Fine.
  Context (dbg : bool) (src : text) (t : tree) (HP : parse_src dbg src = OK (t, [])).

  Lemma node_model e : In e (elements t) -> is_node (el_tree e) = true ->
    exists m, model (el_kind e) = Some m /\ Schema.sem m (Schema.content (map el_tree (children_with_tokens e))).
  Proof.
    intros He N. rewrite children_with_tokens_trees. pose proof (element_subtree t e He) as Sb. unfold el_kind. destruct (el_tree e) as [|k cs] eqn:K; [discriminate N|].
    cbn [tree_kind children].
    assert (W : Schema.well_formed k cs \/
      (k = TWIG_ARROW_FUNCTION /\ Schema.sem (Schema.Seq (Schema.nd [TWIG_ARGUMENTS]) (Schema.Seq (Schema.opt Schema.AnyTok) (Schema.nd [TWIG_EXPRESSION]))) (Schema.content cs))).
    { revert HP. destruct dbg; intros HP0; [left; eapply PropShape.C44_error_free_well_formed; eauto|eapply PropShape.C44_error_free_well_formed_release; eauto]. }
    destruct W as [[W _]|[-> W]]; [|eexists; split; [reflexivity|exact W]].
    unfold Schema.conforms in W. destruct (kind_eq_dec k TWIG_ARROW_FUNCTION) as [->|Nk].
    - eexists. split; [reflexivity|]. cbn [Schema.schema] in W. destruct W as (u & v & -> & Hu & w & z & -> & Hw & Hz). exists u, (w ++ z).
      split; [reflexivity|]. split; [exact Hu|]. exists w, z. split; [reflexivity|]. split; [|exact Hz]. right. destruct Hw as (s & -> & [<-|[]]). eexists. reflexivity.
    - assert (E : model k = Schema.schema k) by (destruct k; try reflexivity; contradiction). rewrite E.
      destruct (Schema.schema k) as [m|]; [eauto|destruct W].
  Qed.
  Lemma first_kind p z : In p (elements t) -> first_child p z -> is_node (el_tree z) = true ->
    exists m, model (el_kind p) = Some m /\ In (el_kind z) (firsts m).
  Proof.
    intros Hp (r & E) N. destruct (is_node (el_tree p)) eqn:Np; [|rewrite leaf_childless in E by exact Np; discriminate E].
    destruct (node_model p Hp Np) as (m & M & S). exists m. split; [exact M|]. rewrite E in S. cbn [map] in S. unfold Schema.content in S. cbn [flat_map] in S.
    rewrite (node_symbol z N) in S. exact (firsts_sound _ _ _ S).
  Qed.
  Lemma last_kind p z : In p (elements t) -> last_child p z -> is_node (el_tree z) = true ->
    exists m, model (el_kind p) = Some m /\ In (el_kind z) (lasts m).
  Proof.
    intros Hp (r & E) N. destruct (is_node (el_tree p)) eqn:Np; [|rewrite leaf_childless in E by exact Np; destruct r; discriminate E].
    destruct (node_model p Hp Np) as (m & M & S). exists m. split; [exact M|]. rewrite E, map_app, content_app in S. cbn [map] in S.
    unfold Schema.content at 2 in S. cbn [flat_map] in S. rewrite (node_symbol z N) in S. exact (lasts_sound _ _ _ S).
  Qed.
  Lemma side_kinds c a y : In c (elements t) -> side_by_side c a y -> is_node (el_tree a) = true -> is_node (el_tree y) = true ->
    exists m, model (el_kind c) = Some m /\ In (el_kind a, el_kind y) (pairs m).
  Proof.
    intros Hc (l & r & E) Na Ny. destruct (is_node (el_tree c)) eqn:Nc; [|rewrite leaf_childless in E by exact Nc; destruct l; discriminate E].
    destruct (node_model c Hc Nc) as (m & M & S). exists m. split; [exact M|]. rewrite E, map_app, content_app in S. cbn [map] in S.
    unfold Schema.content at 2 in S. cbn [flat_map] in S. rewrite (node_symbol a Na), (node_symbol y Ny) in S. exact (pairs_sound _ _ _ _ _ S).
  Qed.
  Lemma in_children e x : In e (elements t) -> In x (preorder_elem e) -> In x (elements t).
  Proof.
    intros He H. destruct (below_or _ _ H) as [->|B]; [exact He|]. unfold elements in *. apply (preorder_trans (root_elem t) e x); assumption.
  Qed.

  (** Going up from the lead of a block along first children. *)
  Lemma head_kinds y lead : In y (elements t) -> In (el_kind lead) (TWIG_STARTING_BLOCK :: comment_kinds) -> is_node (el_tree lead) = true ->
    head_of y lead -> y = lead \/ (In (el_kind y) heads /\ is_node (el_tree y) = true).
  Proof.
    intros Hy K N H.
    assert (G : forall z, head_of y z -> In (el_kind z) (TWIG_STARTING_BLOCK :: comment_kinds ++ heads) -> is_node (el_tree z) = true ->
      y = z \/ (In (el_kind y) heads /\ is_node (el_tree y) = true)).
    { induction 1 as [|p z H1 IH F]; intros Kz Nz; [auto|]. right.
      assert (Hp : In p (elements t)) by (eapply in_children; [exact Hy|now apply head_pre]).
      destruct (first_kind p z Hp F Nz) as (m & M & I). pose proof (up_heads _ _ _ M I Kz) as Kp.
      assert (Np : is_node (el_tree p) = true) by (destruct (is_node (el_tree p)) eqn:Np; [reflexivity|]; destruct F as (r & F); rewrite leaf_childless in F by exact Np; discriminate F).
      assert (Kp' : In (el_kind p) (TWIG_STARTING_BLOCK :: comment_kinds ++ heads)) by (right; apply in_or_app; right; exact Kp).
      destruct (IH Kp' Np) as [->|X]; auto. }
    apply G; [exact H| |exact N]. destruct K as [K|K]; [now left|]. right. apply in_or_app. now left.
  Qed.
  (** An attribute value without quotes does not end with a block. *)
  Lemma value_plain p z w : In p (elements t) -> el_kind p = HTML_STRING -> last_child p z -> is_node (el_tree z) = true -> el_kind z = HTML_STRING_INNER ->
    last_child z w -> is_node (el_tree w) = true -> In (el_kind w) (TWIG_BLOCK :: holders) -> False.
  Proof.
    intros Hp Kp (lp & Ep) Nz Kz (lz & Ez) Nw Kw. pose proof (element_subtree t p Hp) as Sb. pose proof (children_with_tokens_trees p) as Cp.
    pose proof (children_with_tokens_trees z) as Cz. revert Kp Sb Cp. unfold el_kind at 1. destruct (el_tree p) as [k s|k cs] eqn:Tp; cbn [tree_kind children]; intros -> Sb Cp.
    { rewrite leaf_childless in Ep by now rewrite Tp. destruct lp; discriminate Ep. }
    destruct (PropShape.wf_node dbg src t HP HTML_STRING cs ltac:(discriminate) Sb) as [C [_ A]]. unfold Schema.conforms in C. cbn [Schema.schema] in C.
    rewrite Ep, map_app in Cp. cbn [map] in Cp. destruct C as [C|C].
    - rewrite <- Cp, content_app in C. unfold Schema.content at 2 in C. cbn [flat_map] in C. rewrite (node_symbol z Nz), Kz in C. apply lasts_sound in C. exact C.
    - assert (C' : Schema.content cs = [Schema.Nd HTML_STRING_INNER]) by (destruct C as (s & E & [<-|[]]); exact E).
      specialize (A C' (el_tree z)). rewrite Ez, map_app in Cz. cbn [map] in Cz. rewrite <- Cz, content_app in A. unfold Schema.content at 2 4 in A. cbn [flat_map] in A.
      rewrite (node_symbol w Nw) in A. cbn [app] in A. destruct A as [A|A].
      + rewrite <- Cp. unfold Schema.nodes. rewrite filter_app. apply in_or_app. right. cbn [filter]. destruct (el_tree z); [discriminate Nz|now left].
      + change [Schema.Tok TK_WORD] with ([] ++ [Schema.Tok TK_WORD]) in A. apply app_inj_tail in A as [_ A]. discriminate A.
      + change [Schema.Nd TWIG_VAR] with ([] ++ [Schema.Nd TWIG_VAR]) in A. apply app_inj_tail in A as [_ A]. injection A as A. rewrite A in Kw.
        repeat (destruct Kw as [Kw|Kw]; [discriminate Kw|]). destruct Kw.
  Qed.
  (** Going up from a block along last children. *)
  Lemma tail_kinds a b : In a (elements t) -> a_node TWIG_BLOCK b -> tail_of a b -> a = b \/ (In (el_kind a) holders /\ is_node (el_tree a) = true).
  Proof.
    intros Ha (cs & Kb) H.
    assert (G : forall z, tail_of a z -> (el_kind z = HTML_STRING_INNER -> exists w, last_child z w /\ is_node (el_tree w) = true /\ In (el_kind w) (TWIG_BLOCK :: holders)) ->
      In (el_kind z) (TWIG_BLOCK :: holders) -> is_node (el_tree z) = true -> a = z \/ (In (el_kind a) holders /\ is_node (el_tree a) = true)).
    { induction 1 as [|p z H1 IH F]; intros S Kz Nz; [auto|]. right.
      assert (Hp : In p (elements t)) by (eapply in_children; [exact Ha|now apply tail_pre]).
      assert (Np : is_node (el_tree p) = true) by (destruct (is_node (el_tree p)) eqn:Np; [reflexivity|]; destruct F as (r & F); rewrite leaf_childless in F by exact Np; destruct r; discriminate F).
      destruct (last_kind p z Hp F Nz) as (m & M & I). destruct (up_tails _ _ _ M I Kz) as [Kp|[Kp Kz']].
      - destruct IH as [->|X]; [intros _; eauto|now right|exact Np|auto|exact X].
      - destruct (S Kz') as (w & W1 & W2 & W3). destruct (value_plain p z w Hp Kp F Nz Kz' W1 W2 W3). }
    assert (K : el_kind b = TWIG_BLOCK) by (unfold el_kind; now rewrite Kb).
    apply G; [exact H|rewrite K; discriminate|rewrite K; now left|now rewrite Kb].
  Qed.

  Lemma lead_node b lead : lead_of b lead -> is_node (el_tree lead) = true /\ In (el_kind lead) (TWIG_STARTING_BLOCK :: comment_kinds).
  Proof.
    intros [(S & _ & K)|(C & q & l & r & _ & E)].
    - split; [|left; now rewrite K]. unfold starting_block, support_child, child_nodes in S. apply find_some in S as [S _]. now apply filter_In in S.
    - split.
      + assert (I : In lead (child_nodes q)) by (rewrite E; apply in_or_app; right; now left). now apply filter_In in I.
      + right. unfold comment_kinds. destruct C as [-> | [-> | [-> | ->]]]; cbn; auto.
  Qed.
  Lemma side_nodes c a y : side_by_side c a y -> is_node (el_tree a) = true -> is_node (el_tree y) = true -> exists l r, child_nodes c = l ++ a :: y :: r.
  Proof.
    intros (l & r & E) Na Ny. unfold child_nodes. rewrite E, filter_app. cbn [filter]. rewrite Na, Ny. eauto.
  Qed.
  (** The end of a block and the beginning of another one look at the same token only
      where raw texts follow each other. *)
  Lemma before_after cf b b' x n n' : In b (elements t) -> In b' (elements t) -> a_node TWIG_BLOCK b -> a_node TWIG_BLOCK b' ->
    wanted_at cf b Before x n -> wanted_at cf b' After x n' ->
    exists c a y, In c (elements t) /\ side_by_side c a y /\ a_node HTML_RAW_TEXT a /\ a_node HTML_RAW_TEXT y /\ first_token y = Some x.
  Proof.
    intros Hb Hb' K K' W W'. destruct (wanted_lead t cf b x n Hb W) as (L & LL & HL & CL & FL).
    destruct (wanted_end t cf b' x n' Hb' W') as (e & l & Ie & Ke & He & Ne & _ & Te & Hl & Nl & El).
    destruct (next_token_chain t l x Hl El) as (a & c & y & T & S & Hc & F). pose proof (first_token_head _ _ F) as Fy.
    assert (Ha : In a (elements t)) by exact (element_child t c a Hc (side_left _ _ _ S)).
    assert (Hy : In y (elements t)) by exact (element_child t c y Hc (side_right _ _ _ S)).
    assert (Tb : a = e \/ tail_of a b').
    { assert (X : tail_of a e).
      { destruct (tails_linear _ _ _ T Te) as [X|X]; [exact X|]. inversion X as [|p z _ G]; subst; [apply tail_self|]. destruct (side_not_last _ _ _ _ S G). }
      inversion X as [|p z X1 G]; subst; [auto|]. right. apply last_in, PropFound3.child_parent in G. apply PropFound3.child_parent in Ie. rewrite G in Ie. now injection Ie as <-. }
    assert (Ka : (a = b' \/ (In (el_kind a) (TWIG_ENDING_BLOCK :: holders))) /\ is_node (el_tree a) = true).
    { destruct Tb as [->|Tb]; [split; [right; left; now rewrite Ke|exact Ne]|]. destruct (tail_kinds a b' Ha K' Tb) as [->|[X Y]].
      - split; [auto|]. destruct K' as (cs & ->). reflexivity.
      - split; [right; now right|exact Y]. }
    destruct Ka as [Ka Na].
    assert (Hd : head_of y L).
    { destruct (heads_linear _ _ _ Fy FL) as [X|X]; [exact X|]. inversion X as [|p z _ G]; subst; [apply head_self|]. destruct (side_not_first _ _ _ _ S G). }
    destruct (lead_node b L LL) as [NL KL].
    pose proof (head_kinds y L Hy KL NL Hd) as Ky.
    assert (Ny : is_node (el_tree y) = true) by (destruct Ky as [->|[_ X]]; assumption).
    assert (Ky' : In (el_kind y) (TWIG_STARTING_BLOCK :: comment_kinds ++ heads)).
    { destruct Ky as [->|[X _]]; [|right; apply in_or_app; now right]. destruct KL as [X|X]; [now left|]. right. apply in_or_app. now left. }
    assert (KB' : el_kind b' = TWIG_BLOCK) by (destruct K' as (cs & E); unfold el_kind; now rewrite E).
    assert (KB : el_kind b = TWIG_BLOCK) by (destruct K as (cs & E); unfold el_kind; now rewrite E).
    assert (Ka' : In (el_kind a) (TWIG_BLOCK :: TWIG_ENDING_BLOCK :: holders)).
    { destruct Ka as [->|X]; [rewrite KB'; now left|now right]. }
    destruct (side_kinds c a y Hc S Na Ny) as (m & M & I).
    destruct (sides _ _ _ _ M I Ka' Ky') as [[A1 A2]|[A1 A2]].
    2:{ exists c, a, y. split; [exact Hc|]. split; [exact S|]. rewrite <- A1 at 1. rewrite <- A2. split; [now apply node_is|]. split; [now apply node_is|exact F]. }
    exfalso. assert (a = b') as ->.
    { destruct Ka as [X|X]; [exact X|]. rewrite A1 in X. repeat (destruct X as [X|X]; [discriminate X|]). destruct X. }
    destruct (side_nodes c b' y S Na Ny) as (nl & nr & CN).
    destruct W' as (p & be & af & pr & ne & st & en & [P A] & _ & NE & _ & _ & _ & _ & NB & _).
    pose proof (PropFound3.child_parent _ _ (side_left _ _ _ S)) as P'. rewrite P in P'. injection P' as ->.
    assert (ND : NoDup (child_nodes c)) by (apply NoDup_filter, children_nodup).
    pose proof A as A'. rewrite CN in A'. rewrite CN in ND. destruct (nodup_split _ _ _ _ _ ND A') as [_ Eaf]. subst af.
    destruct A2 as [A2|A2].
    - destruct NE as [(z & r & E & C & _)|[E _]].
      + injection E as <- <-. destruct C as [C|[C|[C|C]]]; rewrite <- A2 in C; discriminate C.
      + cbn [hd_error] in E. exact (NB y E (eq_sym A2)).
    - assert (Cy : a_comment y) by (unfold a_comment; destruct A2 as [X|[X|[X|[X|[]]]]]; rewrite <- X; auto).
      assert (y = L) as ->.
      { destruct Ky as [X|[X _]]; [exact X|]. exfalso. destruct A2 as [Y|[Y|[Y|[Y|[]]]]]; rewrite <- Y in X; repeat (destruct X as [X|X]; [discriminate X|]); destruct X. }
      destruct LL as [(_ & _ & X)|(_ & q & l1 & r1 & Q & E)]; [destruct Cy as [C|[C|[C|C]]]; rewrite X in C; discriminate C|].
      assert (IL : In L (child_nodes q)) by (rewrite E; apply in_or_app; right; now left). apply filter_In in IL as [IL _]. apply PropFound3.child_parent in IL.
      pose proof (PropFound3.child_parent _ _ (side_right _ _ _ S)) as IL'. rewrite IL in IL'. injection IL' as ->.
      change (nl ++ b' :: L :: nr) with (nl ++ [b'] ++ L :: nr) in CN, ND. rewrite app_assoc in CN, ND. rewrite CN in E. destruct (nodup_split _ _ _ _ _ ND E) as [_ Er]. subst nr.
      destruct NE as [(z & r & E2 & _ & E3)|[_ E2]].
      + injection E2 as <- <-. cbn [hd_error] in E3. exact (NB b E3 KB).
      + exact (E2 L (b :: r1) eq_refl Cy).
  Qed.
End Fine.
