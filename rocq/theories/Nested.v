(** How deep the tokens of a template are nested: the same for templates that differ in white space
    only, and the same for white space and the token behind it.  Machinery for C72. *)
From Coq Require Import NArith String Bool Arith Lia List.
Import ListNotations.
From Verif Require Import Text Kind Regex Lexer LexerProofs ParserApi Machine TreeSpec.
From Verif Require Shape.
From Verif Require Import Layout Snug.
From Verif Require PropIndent.
From Verif Require Import Red Typed Rule Rules Check Process RedFacts WalkSpec PropRun PropTree Found PropFound6 Tidy.
Local Notation length := List.length (only parsing).
Local Open Scope list_scope.

(** * What an element inherits from its parent *)
Definition deepen_kind (k : kind) : bool :=
  existsb (kind_eqb k) [BODY; TWIG_ARGUMENTS; TWIG_LITERAL_ARRAY_INNER; TWIG_LITERAL_HASH_ITEMS; TWIG_PROP_DECLARATION].
Definition deepens (cf : config) (kp : kind) (k : kind) : bool :=
  deepen_kind k && (indent_children_of_blocks cf || negb (kind_eqb kp TWIG_BLOCK)).
Definition name_leaf (c : tree) : bool :=
  negb (is_node c) && (kind_eqb (tree_kind c) TK_WORD || kind_eqb (tree_kind c) TK_TWIG_COMPONENT_NAME).
Definition name_in (cs : list tree) : option text := option_map tree_text (find name_leaf cs).
Definition aligns (kp : kind) (n : option text) (t : tree) : nat :=
  if (is_node t && kind_eqb (tree_kind t) HTML_ATTRIBUTE_LIST) && kind_eqb kp HTML_STARTING_TAG
  then match n with Some n => length n + 2 | None => 0 end else 0.
Definition keeps (t : tree) : bool :=
  match t with
  | Node HTML_TAG _ => match tag_name t with Some n => sensitive_tag_name n | None => false end
  | _ => false
  end.
Fixpoint keeping (t : tree) : bool :=
  keeps t || match t with Leaf _ _ => false | Node _ cs => existsb keeping cs end.

Lemma is_sensitive_keeps e : is_sensitive_tag e = keeps (el_tree e).
Proof.
  pose proof (protects_spec e) as H. unfold protects, keeps_whitespace, is_sensitive, is_sensitive_tag, cast, el_kind in *.
  destruct (el_tree e) as [k s|k cs]; [reflexivity|]. cbn [is_node andb tree_kind] in *. destruct k; try reflexivity. exact H.
Qed.

Definition note : Set := (nat * nat * bool)%type.
Definition depth_in (cf : config) (e : elem) : nat := length (filter (deepening cf) (lineage e)).
Definition shift_in (e : elem) : nat := list_sum (map aligning (lineage e)).
Definition info (cf : config) (e : elem) : note := (depth_in cf e, shift_in e, indent_protected e).

Definition child_note (cf : config) (kp : kind) (n : option text) (i : note) (cleared : bool) (c : tree) : note :=
  let '(d, s, f) := i in
  ((if deepens cf kp (tree_kind c) then 1 else 0) + d, aligns kp n c + s, keeps c || f && negb cleared).

Section Tree.
  Context (cf : config) (root : tree).
  Hypothesis Hid : forall e, within root e -> tree_hides e = false.

  Lemma all_reached e : within root e -> reached tree_hides e = true.
  Proof.
    intros W. unfold reached. apply negb_true_iff. destruct (existsb tree_hides (tl (lineage e))) eqn:E; [|reflexivity].
    apply existsb_exists in E as (x & Hx & E). rewrite (Hid x) in E; [discriminate|]. destruct e as [t off p].
    eapply PropIndent.lineage_within; [exact W|]. destruct (lineage (mkElem t off p)); [destruct Hx|now right].
  Qed.
  Lemma has_keeping : forall e, within root e -> has_mark tree_hides is_sensitive_tag e = keeping (el_tree e).
  Proof.
    apply (elem_induction (fun e => within root e -> has_mark tree_hides is_sensitive_tag e = keeping (el_tree e))).
    intros e IH W. rewrite has_mark_seen by now apply all_reached. rewrite is_sensitive_keeps.
    assert (G : existsb (has_mark tree_hides is_sensitive_tag) (children_with_tokens e) = existsb keeping (children (el_tree e))).
    { rewrite <- children_with_tokens_trees. assert (I : forall x, In x (children_with_tokens e) -> has_mark tree_hides is_sensitive_tag x = keeping (el_tree x)).
      { intros x Hx. apply IH; [exact Hx|]. eapply within_children; eauto. }
      clear IH. induction (children_with_tokens e) as [|c l IHl]; [reflexivity|]. cbn [existsb map]. rewrite (I c (or_introl eq_refl)), IHl; [reflexivity|].
      intros x Hx. apply I. now right. }
    rewrite G. destruct (el_tree e); reflexivity.
  Qed.
  Lemma info_child p l1 c l2 : within root p -> children_with_tokens p = l1 ++ c :: l2 ->
    info cf c = child_note cf (el_kind p) (name_in (children (el_tree p))) (info cf p) (existsb keeping (map el_tree l1)) (el_tree c).
  Proof.
    intros W E. assert (Hc : In c (children_with_tokens p)) by (rewrite E; apply in_elt).
    assert (Pc : parent c = Some p) by (destruct (children_path _ _ Hc) as (x & _ & X); exact X).
    assert (Np : is_node (el_tree p) = true). { destruct p as [[k s|k cs] o q]; [destruct Hc|reflexivity]. }
    unfold info, child_note, depth_in, shift_in. rewrite (lineage_child p c Hc). cbn [filter map list_sum fold_right].
    f_equal; [f_equal|].
    - unfold deepening at 1. rewrite Pc. fold (deepen_kind (el_kind c)). unfold el_kind at 1. fold (deepens cf (el_kind p) (tree_kind (el_tree c))).
      now destruct (deepens cf (el_kind p) (tree_kind (el_tree c))).
    - cbn. f_equal. unfold aligning, aligns, node_of, name_in. rewrite Pc, Np. cbn [andb]. unfold el_kind.
      destruct (_ && _); [|reflexivity]. pose proof (starting_tag_name_tree p) as S. fold name_leaf in S. rewrite <- S. destruct (starting_tag_name p); reflexivity.
    - unfold indent_protected at 1. rewrite flag_unfold, is_sensitive_keeps, (inherited_child tree_hides is_sensitive_tag p l1 c l2 E). fold (indent_protected p). do 3 f_equal.
      assert (I : forall x, In x l1 -> within root x).
      { intros x Hx. eapply within_children; [exact W|]. rewrite E. apply in_app_iff. now left. }
      clear E. induction l1 as [|x l IHl]; [reflexivity|]. cbn [existsb map]. rewrite has_keeping by (apply I; now left). f_equal. apply IHl. intros y Hy. apply I. now right.
  Qed.
End Tree.

(** * The notes of all tokens, read off the tree *)
Definition entry : Set := (kind * text * note)%type.
Fixpoint notes (cf : config) (i : note) (t : tree) : list entry :=
  match t with
  | Leaf k s => [(k, s, i)]
  | Node k cs =>
    (fix go (cleared : bool) (l : list tree) : list entry :=
       match l with
       | [] => []
       | c :: r => notes cf (child_note cf k (name_in cs) i cleared c) c ++ go (cleared || keeping c) r
       end) false cs
  end.
Fixpoint notes_in (cf : config) (k : kind) (n : option text) (i : note) (cleared : bool) (l : list tree) : list entry :=
  match l with
  | [] => []
  | c :: r => notes cf (child_note cf k n i cleared c) c ++ notes_in cf k n i (cleared || keeping c) r
  end.
Lemma notes_node cf i k cs : notes cf i (Node k cs) = notes_in cf k (name_in cs) i false cs.
Proof.
  cbn [notes]. generalize (name_in cs). intros n. generalize false. induction cs as [|c r IH]; intros b; [reflexivity|]. cbn [notes_in]. now rewrite IH.
Qed.

Definition entry_of (cf : config) (x : elem) : entry := (el_kind x, el_text x, info cf x).
Lemma tokens_notes_at cf root : (forall e, within root e -> tree_hides e = false) ->
  forall e, within root e -> map (entry_of cf) (tokens_of (preorder_elem e)) = notes cf (info cf e) (el_tree e).
Proof.
  intros Hid. apply (elem_induction (fun e => within root e -> map (entry_of cf) (tokens_of (preorder_elem e)) = notes cf (info cf e) (el_tree e))).
  intros e IH W. rewrite preorder_elem_unfold. pose proof (children_with_tokens_trees e) as T.
  destruct (el_tree e) as [k s|k cs] eqn:Et.
  - assert (N : children_with_tokens e = []) by (destruct (children_with_tokens e); [reflexivity|discriminate T]).
    rewrite N. cbn [flat_map]. unfold tokens_of. cbn [filter]. rewrite Et. cbn [is_node negb map notes]. unfold entry_of, el_kind, el_text. rewrite Et. cbn. now rewrite app_nil_r.
  - rewrite notes_node. cbn [children] in T.
    assert (G : forall l1 l2, children_with_tokens e = l1 ++ l2 ->
      map (entry_of cf) (tokens_of (flat_map preorder_elem l2)) = notes_in cf k (name_in cs) (info cf e) (existsb keeping (map el_tree l1)) (map el_tree l2)).
    { intros l1 l2. revert l1. induction l2 as [|c l2 IHl]; intros l1 E; [reflexivity|]. cbn [flat_map map notes_in]. unfold tokens_of. rewrite filter_app, map_app. f_equal.
      - change (filter _ _) with (tokens_of (preorder_elem c)). rewrite IH.
        + f_equal. rewrite (info_child cf root Hid e l1 c l2 W E). unfold el_kind. now rewrite Et.
        + rewrite E. apply in_elt.
        + eapply within_children; [exact W|]. rewrite E. apply in_elt.
      - change (filter _ _) with (tokens_of (flat_map preorder_elem l2)). rewrite (IHl (l1 ++ [c])) by (rewrite <- app_assoc; exact E).
        f_equal. rewrite map_app, existsb_app. cbn [map existsb]. now rewrite orb_false_r. }
    unfold tokens_of. cbn [filter]. rewrite Et. cbn [is_node negb]. specialize (G [] _ eq_refl). rewrite T in G. exact G.
Qed.
Lemma tokens_notes cf cs : (forall e, within (Node ROOT cs) e -> tree_hides e = false) ->
  map (entry_of cf) (tokens_of (elements (Node ROOT cs))) = notes cf (0, 0, false) (Node ROOT cs).
Proof.
  intros Hid. pose proof (tokens_notes_at cf _ Hid (root_elem (Node ROOT cs)) (within_root _)) as H.
  assert (E : info cf (root_elem (Node ROOT cs)) = (0, 0, false)) by reflexivity.
  rewrite E in H. exact H.
Qed.

(** * Templates that differ in white space only *)
Definition solid (e : entry) : bool := negb (is_trivia (fst (fst e))).
Definition stripped (c : tree) : tree := match c with Leaf k s => Leaf k s | Node k cs => Node k (flat_map bare cs) end.
Lemma bare_stripped c : bare c = if white c then [] else [stripped c].
Proof. destruct c as [k s|k cs]; cbn; [now destruct (is_trivia k)|reflexivity]. Qed.
Lemma find_bare f cs : (forall c, white c = true -> f c = false) -> (forall c, f (stripped c) = f c) ->
  find f (flat_map bare cs) = option_map stripped (find f cs).
Proof.
  intros W S. induction cs as [|c cs IH]; [reflexivity|]. cbn [flat_map find]. rewrite bare_stripped. destruct (white c) eqn:E; cbn [app find].
  - now rewrite (W c E).
  - rewrite S. destruct (f c); [reflexivity|exact IH].
Qed.
Lemma name_bare cs : name_in (flat_map bare cs) = name_in cs.
Proof.
  unfold name_in. rewrite find_bare.
  - destruct (find name_leaf cs) as [c|] eqn:E; [|reflexivity]. apply find_some in E as (_ & E). cbn [option_map].
    destruct c; [reflexivity|discriminate E].
  - intros [k s|k l]; cbn [white]; [|discriminate]. intros T. destruct k; try discriminate T; reflexivity.
  - intros [k s|k l]; reflexivity.
Qed.
Lemma keeps_bare c : keeps (stripped c) = keeps c.
Proof.
  destruct c as [k s|k cs]; [reflexivity|]. cbn [stripped keeps]. destruct k; try reflexivity. unfold tag_name. cbn [children].
  rewrite find_bare.
  - destruct (find _ cs) as [c|] eqn:E; [|reflexivity]. cbn [option_map]. fold name_leaf. fold (name_in (children (stripped c))). fold (name_in (children c)).
    destruct c as [k s|k l]; [reflexivity|]. cbn [stripped children]. now rewrite name_bare.
  - intros [k s|k l]; cbn [white is_node andb]; [reflexivity|discriminate].
  - intros [k s|k l]; reflexivity.
Qed.
Lemma existsb_bare f cs : (forall c, white c = true -> f c = false) -> (forall c, In c cs -> f (stripped c) = f c) ->
  existsb f (flat_map bare cs) = existsb f cs.
Proof.
  intros W. induction cs as [|c cs IH]; intros S; [reflexivity|]. cbn [flat_map existsb]. rewrite existsb_app, bare_stripped, IH by (intros x Hx; apply S; now right).
  destruct (white c) eqn:E; cbn [existsb].
  - now rewrite (W c E).
  - now rewrite (S c (or_introl eq_refl)), orb_false_r.
Qed.
Lemma keeping_bare : forall c, keeping (stripped c) = keeping c.
Proof.
  induction c as [k s|k cs IH] using tree_induction; [reflexivity|].
  change (keeping (Node k cs)) with (keeps (Node k cs) || existsb keeping cs).
  change (keeping (stripped (Node k cs))) with (keeps (stripped (Node k cs)) || existsb keeping (flat_map bare cs)).
  rewrite keeps_bare, existsb_bare; [reflexivity| |].
  - intros [k' s|k' l]; cbn [white]; [reflexivity|discriminate].
  - intros c Hc. rewrite Forall_forall in IH. now apply IH.
Qed.
Lemma child_note_bare cf kp n i b c : child_note cf kp n i b (stripped c) = child_note cf kp n i b c.
Proof.
  unfold child_note. destruct i as [[d s] f]. rewrite keeps_bare. now destruct c.
Qed.
Lemma notes_bare cf : forall c i, filter solid (notes cf i c) = if white c then [] else filter solid (notes cf i (stripped c)).
Proof.
  induction c as [k s|k cs IH] using tree_induction; intros i.
  - cbn. unfold solid. cbn [fst]. now destruct (is_trivia k).
  - cbn [white stripped]. rewrite !notes_node, name_bare. generalize (name_in cs). intros n. generalize false. rewrite Forall_forall in IH.
    induction cs as [|c cs IHl]; intros b; [reflexivity|]. cbn [flat_map notes_in]. rewrite filter_app, (IH c (or_introl eq_refl)), bare_stripped.
    rewrite IHl by (intros x Hx; apply IH; now right). destruct (white c) eqn:E; cbn [app].
    + f_equal. assert (K : keeping c = false) by (destruct c; [reflexivity|discriminate E]). now rewrite K, orb_false_r.
    + cbn [notes_in]. now rewrite filter_app, child_note_bare, keeping_bare.
Qed.
Lemma same_bare_notes cf i k cs k' cs' : bare (Node k cs) = bare (Node k' cs') ->
  filter solid (notes cf i (Node k cs)) = filter solid (notes cf i (Node k' cs')).
Proof.
  intros E. rewrite (notes_bare cf (Node k cs)), (notes_bare cf (Node k' cs')). cbn [white stripped]. cbn [bare] in E. now injection E as -> ->.
Qed.

(** * White space and the token behind it *)
Fixpoint steady (l : list entry) : Prop :=
  match l with
  | x :: (y :: _) as r => (solid x = false -> snd x = snd y) /\ steady r
  | _ => True
  end.
Fixpoint final (l : list entry) : option entry := match l with [] => None | [x] => Some x | _ :: r => final r end.
Lemma final_app a b : final (a ++ b) = match b with [] => final a | _ => final b end.
Proof.
  induction a as [|x a IH]; [now destruct b|]. cbn [app]. destruct b as [|y b]; [now rewrite app_nil_r|].
  cbn [final]. destruct (a ++ y :: b) eqn:E; [destruct a; discriminate E|exact IH].
Qed.
Lemma steady_app : forall a b, steady (a ++ b) <->
  steady a /\ steady b /\ (forall x, final a = Some x -> solid x = false -> match b with y :: _ => snd x = snd y | [] => True end).
Proof.
  induction a as [|x a IH]; intros b; [cbn; intuition discriminate|]. destruct a as [|y a].
  - cbn [app final steady]. split.
    + intros H. split; [exact I|]. destruct b as [|z b]; [split; [exact I|intros; exact I]|]. cbn [steady] in H. split; [apply H|].
      intros y Y. injection Y as <-. apply H.
    + intros (_ & H & K). destruct b as [|z b]; [exact I|]. cbn [steady]. split; [exact (K x eq_refl)|exact H].
  - change (steady ((x :: y :: a) ++ b)) with ((solid x = false -> snd x = snd y) /\ steady ((y :: a) ++ b)). rewrite IH.
    change (steady (x :: y :: a)) with ((solid x = false -> snd x = snd y) /\ steady (y :: a)). change (final (x :: y :: a)) with (final (y :: a)). tauto.
Qed.

Lemma notes_leaf cf i c : is_leaf c = true -> exists k s, c = Leaf k s /\ notes cf i c = [(k, s, i)].
Proof. destruct c as [k s|k l]; [|discriminate]. intros _. exists k, s. split; reflexivity. Qed.
Lemma inner_kind k : inner k = true -> deepen_kind k = false /\ kind_eqb k HTML_ATTRIBUTE_LIST = false /\ k <> HTML_TAG.
Proof. destruct k; try (intros X; discriminate X); intros _; repeat split; try reflexivity; discriminate. Qed.
Lemma white_note cf kp n d s f b c : white c = true -> child_note cf kp n (d, s, f) b c = (d, s, f && negb b).
Proof.
  destruct c as [k t|k l]; [|discriminate]. cbn [white]. intros W. unfold child_note, deepens, aligns. cbn [is_node andb keeps orb tree_kind].
  assert (D : deepen_kind k = false) by (destruct k; try discriminate W; reflexivity). rewrite D. reflexivity.
Qed.
Lemma hangs_note cf kp n d s f b c : hangs c = true -> child_note cf kp n (d, s, f) b c = (d, s, f && negb b).
Proof.
  destruct c as [k t|k l]; [discriminate|]. cbn [hangs]. intros W. apply andb_true_iff in W as (W & _). destruct (inner_kind _ W) as (D & A & T).
  unfold child_note, deepens, aligns. cbn [tree_kind]. rewrite D, A, andb_false_r. cbn [andb Nat.add]. f_equal. destruct k; try reflexivity. now destruct T.
Qed.
Definition token_kinds (t : tree) : Prop := forall k s, In (k, s) (leaves t) -> deepen_kind k = false.
(** What is known about the tokens of a tree. *)
Lemma notes_final cf : forall c, Shape.every placed_white c -> forall i x, final (notes cf i c) = Some x -> solid x = false ->
  needs c = true /\ snd x = (fst i, snd i && negb (keeping c)).
Proof.
  induction c as [k s|k cs IH] using tree_induction; intros E i x F W.
  - cbn [notes final] in F. injection F as <-. unfold solid in W. cbn [fst] in W. apply negb_false_iff in W. unfold needs. cbn [white]. rewrite W. split; [reflexivity|].
    destruct i as [[d a] f]. cbn. now rewrite andb_true_r.
  - inversion E as [|? ? (P & L & Wi) Ec]; subst. rewrite notes_node in F. revert F. generalize (name_in cs). intros n F.
    assert (G : exists pre c post, cs = pre ++ c :: post /\ final (notes cf (child_note cf k n i (existsb keeping pre) c) c) = Some x /\
      exists b, notes_in cf k n i b post = []).
    { assert (Q : forall l pre, cs = pre ++ l -> final (notes_in cf k n i (existsb keeping pre) l) = Some x ->
        exists pre c post, cs = pre ++ c :: post /\ final (notes cf (child_note cf k n i (existsb keeping pre) c) c) = Some x /\ exists b, notes_in cf k n i b post = []).
      { clear P L Wi Ec E F IH. induction l as [|c l IHl]; intros pre El Fl; [discriminate Fl|]. cbn [notes_in] in Fl. rewrite final_app in Fl.
        destruct (notes_in cf k n i (existsb keeping pre || keeping c) l) as [|y r] eqn:R.
        - exists pre, c, l. split; [exact El|]. split; [exact Fl|]. eexists. exact R.
        - apply (IHl (pre ++ [c])); [now rewrite <- app_assoc|]. rewrite existsb_app. cbn [existsb]. rewrite orb_false_r, R. exact Fl. }
      exact (Q cs [] eq_refl F). }
    destruct G as (pre & c & post & -> & Fc & b & Nb). rewrite Forall_forall in IH, Ec.
    destruct (IH c (in_elt _ _ _) (Ec c (in_elt _ _ _)) _ _ Fc W) as (N & V).
    apply paired_app in P as (_ & P & _). destruct post as [|y post].
    2:{ cbn [paired] in P. destruct P as (P & _). fold (needs c) in P. destruct (notes_leaf cf (child_note cf k n i b y) y (P N)) as (ky & sy & Ey & Eny).
        cbn [notes_in] in Nb. rewrite Eny in Nb. discriminate Nb. }
    rewrite last_of_snoc in L, Wi. unfold needs in N. rewrite L, orb_false_r in N. specialize (Wi N). split.
    + unfold needs. cbn [white hangs orb]. rewrite Wi, last_white_of, last_of_snoc. exact N.
    + rewrite V. destruct i as [[d a] f]. rewrite (white_note cf k n d a f _ c N). cbn [fst snd].
      assert (Kc : keeping c = false) by (destruct c; [reflexivity|discriminate N]). rewrite Kc, andb_true_r.
      change (keeping (Node k (pre ++ [c]))) with (keeps (Node k (pre ++ [c])) || existsb keeping (pre ++ [c])).
      destruct (inner_kind _ Wi) as (_ & _ & T). assert (Kk : keeps (Node k (pre ++ [c])) = false) by (destruct k; try reflexivity; now destruct T).
      rewrite Kk, existsb_app. cbn [existsb orb]. now rewrite Kc, !orb_false_r.
Qed.

Lemma token_kinds_in k cs c : token_kinds (Node k cs) -> In c cs -> token_kinds c.
Proof. intros T Hc a s H. apply (T a s). cbn [leaves]. apply in_flat_map. exists c. split; assumption. Qed.
Lemma junction cf k n i b c y : Shape.every placed_white c -> needs c = true -> is_leaf y = true -> token_kinds y -> forall x, final (notes cf (child_note cf k n i b c) c) = Some x -> solid x = false ->
  snd x = child_note cf k n i (b || keeping c) y.
Proof.
  intros Ec N Ly T x F W. destruct (notes_final cf c Ec _ _ F W) as (_ & ->). destruct i as [[d a] f].
  assert (Ei : child_note cf k n (d, a, f) b c = (d, a, f && negb b)).
  { unfold needs in N. apply orb_true_iff in N as [N|N]; [now apply white_note|now apply hangs_note]. }
  rewrite Ei. cbn [fst snd]. destruct y as [ky sy|]; [|discriminate Ly]. unfold child_note, deepens, aligns. cbn [is_node andb keeps orb tree_kind].
  rewrite (T ky sy) by (left; reflexivity). cbn [andb Nat.add]. f_equal. now destruct f, b, (keeping c).
Qed.
Lemma notes_steady_in cf k n i : forall cs b, paired cs -> Forall (Shape.every placed_white) cs -> (forall c, In c cs -> token_kinds c) ->
  (forall c j, In c cs -> steady (notes cf j c)) -> steady (notes_in cf k n i b cs).
Proof.
  induction cs as [|c cs IH]; intros b P E T S; [exact I|]. cbn [notes_in]. inversion E as [|? ? Ec Ecs]; subst. apply steady_app.
  split; [apply S; now left|]. split.
  - apply IH; [now destruct cs; [exact I|apply P]|exact Ecs| |]; intros x Hx; [apply T|intros j; apply S]; try (now right). 
  - intros x F W. destruct (notes_final cf c Ec _ _ F W) as (N & _). destruct cs as [|y cs]; [exact I|]. destruct P as (P & _). fold (needs c) in P. specialize (P N).
    cbn [notes_in]. destruct (notes_leaf cf (child_note cf k n i (b || keeping c) y) y P) as (ky & sy & Ey & Eny). rewrite Eny. cbn [app snd].
    eapply junction; eauto. apply T. right. now left.
Qed.
Lemma notes_steady cf : forall c, Shape.every placed_white c -> token_kinds c -> forall i, steady (notes cf i c).
Proof.
  induction c as [k s|k cs IH] using tree_induction; intros E T i; [exact I|]. inversion E as [|? ? (P & L & Wi) Ec]; subst. rewrite notes_node.
  rewrite Forall_forall in IH. apply notes_steady_in; [exact P|exact Ec| |].
  - intros c Hc. eapply token_kinds_in; eauto.
  - intros c j Hc. apply IH; [exact Hc|rewrite Forall_forall in Ec; now apply Ec|eapply token_kinds_in; eauto].
Qed.
Lemma file_steady cf t : placed_file t -> token_kinds t -> steady (notes cf (0, 0, false) t).
Proof.
  intros (cs & -> & P & L & E) T. rewrite notes_node. apply notes_steady_in; [exact P|exact E| |].
  - intros c Hc. eapply token_kinds_in; eauto.
  - intros c j Hc. apply notes_steady; [rewrite Forall_forall in E; now apply E|eapply token_kinds_in; eauto].
Qed.
Lemma file_final cf t x : placed_file t -> final (notes cf (0, 0, false) t) = Some x -> solid x = false -> snd x = (0, 0, false).
Proof.
  intros (cs & -> & P & L & E) F W. rewrite notes_node in F. revert F. generalize (name_in cs). intros n F. 
  assert (Q : forall l b, paired l -> Forall (Shape.every placed_white) l -> final (notes_in cf ROOT n (0, 0, false) b l) = Some x -> snd x = (0, 0, false)).
  { induction l as [|c l IHl]; intros b Pl El Fl; [discriminate Fl|]. inversion El as [|? ? Ec El']; subst. cbn [notes_in] in Fl. rewrite final_app in Fl.
    destruct (notes_in cf ROOT n (0, 0, false) (b || keeping c) l) as [|y r] eqn:R.
    - destruct (notes_final cf c Ec _ _ Fl W) as (N & ->).
      assert (Ei : child_note cf ROOT n (0, 0, false) b c = (0, 0, false)).
      { unfold needs in N. apply orb_true_iff in N as [N|N]; [now rewrite white_note|now rewrite hangs_note]. }
      rewrite Ei. reflexivity.
    - apply (IHl (b || keeping c)); [destruct l; [exact I|apply Pl]|exact El'|]. rewrite R. exact Fl. }
  exact (Q cs false P E F).
Qed.
