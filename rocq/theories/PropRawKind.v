(** C88: kinds survive their way through the tree library. *)
From Coq Require Import NArith Arith String Bool Lia List.
Import ListNotations.
From Verif Require Import Text Kind Lexer LexerProofs Machine TreeSpec Red RedFacts Process RawKind.
Local Open Scope list_scope.

Local Definition survives (k : kind) : bool :=
  match kind_from_raw (kind_to_raw k) with Read k' => kind_eqb k' k | _ => false end.
Local Definition taken (n : N) : bool :=
  match kind_from_raw n with Read k => N.eqb (kind_to_raw k) n | _ => false end.
Local Lemma survive_all : forallb survives all_kinds = true.
Proof. vm_compute. reflexivity. Qed.
Local Lemma taken_all : forallb taken (map N.of_nat (seq 0 (S (N.to_nat (kind_to_raw ROOT))))) = true.
Proof. vm_compute. reflexivity. Qed.

(** What is written for a kind is read as that kind. *)
Theorem C88_kinds_survive : forall k, kind_from_raw (kind_to_raw k) = Read k.
Proof.
  intros k. pose proof (nth_error_In _ _ (kind_idx_nth k)) as I.
  pose proof (proj1 (forallb_forall _ _) survive_all k I) as H. unfold survives in H.
  destruct (kind_from_raw (kind_to_raw k)) as [k'| |]; [|discriminate H..]. apply kind_eqb_eq in H. now rewrite H.
Qed.

Local Lemma low n : (n <= kind_to_raw ROOT)%N -> exists k, kind_from_raw n = Read k /\ kind_to_raw k = n.
Proof.
  intros L. assert (I : In n (map N.of_nat (seq 0 (S (N.to_nat (kind_to_raw ROOT)))))).
  { apply in_map_iff. exists (N.to_nat n). split; [apply N2Nat.id|]. apply in_seq. generalize dependent (kind_to_raw ROOT). intros r L. lia. }
  pose proof (proj1 (forallb_forall _ _) taken_all n I) as H. unfold taken in H.
  destruct (kind_from_raw n) as [k| |]; [|discriminate H..]. exists k. split; [reflexivity|]. now apply N.eqb_eq.
Qed.
Local Lemma high n : ~ (n <= kind_to_raw ROOT)%N -> kind_from_raw n = AssertionFailed.
Proof. intros L. unfold kind_from_raw. apply N.leb_nle in L. rewrite L. reflexivity. Qed.

(** Whatever number is read, no value outside of the enumeration is made: either the number is
    that of a kind, and that kind is read, or it is that of no kind and the assertion stops. *)
Theorem C88_reading_is_defined : forall n,
  (exists k, kind_to_raw k = n /\ kind_from_raw n = Read k) \/
  ((forall k, kind_to_raw k <> n) /\ kind_from_raw n = AssertionFailed).
Proof.
  intros n. destruct (N.le_gt_cases n (kind_to_raw ROOT)) as [L|L].
  - left. destruct (low n L) as (k & R & E). exists k. auto.
  - right. assert (A : kind_from_raw n = AssertionFailed) by (apply high; apply N.lt_nge; exact L). split; [|exact A].
    intros k E. rewrite <- E, C88_kinds_survive in A. discriminate A.
Qed.
(** Both cases occur. *)
Example C88_number_of_a_kind : kind_from_raw (kind_to_raw TWIG_BLOCK) = Read TWIG_BLOCK.
Proof. vm_compute. reflexivity. Qed.
Example C88_number_of_no_kind : kind_from_raw 283 = AssertionFailed /\ kind_from_raw 282 = Read ROOT.
Proof. split; vm_compute; reflexivity. Qed.

(** Numbers of kinds are different, and fit into sixteen bits. *)
Theorem C88_numbers_differ : forall a b, kind_to_raw a = kind_to_raw b -> a = b.
Proof. intros a b E. pose proof (C88_kinds_survive a) as A. rewrite E, C88_kinds_survive in A. injection A as A. now symmetry. Qed.

(** Any walk over a tree, in particular over that of a parsed file, sees the kinds the parser
    has given, and the assertion stops none. *)
Theorem C88_trees_survive : forall t, decode (encode t) = Read t.
Proof.
  intros t. induction t as [k s|k cs IH] using tree_induction; cbn [encode decode]; rewrite C88_kinds_survive; [reflexivity|].
  assert (E : read_all (map decode (map encode cs)) = Read cs) by (induction IH as [|c r Hc _ IHr]; cbn [map read_all]; [reflexivity|rewrite Hc, IHr; reflexivity]).
  rewrite E. reflexivity.
Qed.
Example C88_case :
  match parse_file true (txt "<p>{{ a ?? 'b' }}</p> {% if") with
  | Done (t, _) => decode (encode t) = Read t /\ List.length (leaves t) = 21
  | _ => False
  end.
Proof. vm_compute. split; reflexivity. Qed.

(** The numbers in a tree. *)
Inductive number_in : N -> green -> Prop :=
| number_token n s : number_in n (GToken n s)
| number_node n cs : number_in n (GNode n cs)
| number_child n m c cs : In c cs -> number_in n c -> number_in n (GNode m cs).

Section Induction.
  Variable P : green -> Prop.
  Hypothesis HT : forall n s, P (GToken n s).
  Hypothesis HN : forall n cs, Forall P cs -> P (GNode n cs).
  Fixpoint green_induction (g : green) : P g :=
    match g with
    | GToken n s => HT n s
    | GNode n cs => HN n cs ((fix go (l : list green) : Forall P l :=
        match l with [] => Forall_nil P | c :: r => Forall_cons c (green_induction c) (go r) end) cs)
    end.
End Induction.

Local Lemma read_some n : kind_from_raw n = AssertionFailed /\ (forall k, kind_to_raw k <> n) \/ exists k, kind_from_raw n = Read k /\ kind_to_raw k = n.
Proof. destruct (C88_reading_is_defined n) as [(k & A & B)|(A & B)]; [right; exists k; auto|left; auto]. Qed.

(** A tree that comes from elsewhere (the tree library lets everyone build one): the walk sees
    the tree that is written as the given one, or stops at the assertion because of a number
    that is no kind's. *)
Theorem C88_foreign_trees_are_read_or_refused : forall g,
  (exists t, decode g = Read t /\ encode t = g) \/
  (decode g = AssertionFailed /\ exists n, number_in n g /\ forall k, kind_to_raw k <> n).
Proof.
  intros g. induction g as [n s|n cs IH] using green_induction; cbn [decode].
  - destruct (read_some n) as [(-> & F)|(k & -> & E)]; [right|left].
    + split; [reflexivity|]. exists n. split; [constructor|exact F].
    + exists (Leaf k s). split; [reflexivity|]. cbn [encode]. now rewrite E.
  - destruct (read_some n) as [(-> & F)|(k & -> & E)].
    { right. split; [reflexivity|]. exists n. split; [constructor|exact F]. }
    assert (L : (exists l, read_all (map decode cs) = Read l /\ map encode l = cs) \/
      (read_all (map decode cs) = AssertionFailed /\ exists c m, In c cs /\ number_in m c /\ forall k, kind_to_raw k <> m)).
    { induction IH as [|c r Hc _ IHr]; cbn [map read_all]; [left; exists []; split; reflexivity|].
      destruct Hc as [(t & -> & Et)|(-> & m & M & F)].
      - destruct IHr as [(l & -> & El)|(-> & c' & m & I & M & F)].
        + left. exists (t :: l). split; [reflexivity|]. cbn [map]. now rewrite Et, El.
        + right. split; [reflexivity|]. exists c', m. split; [right; exact I|]. split; [exact M|exact F].
      - right. split; [reflexivity|]. exists c, m. split; [left; reflexivity|]. split; [exact M|exact F]. }
    destruct L as [(l & -> & El)|(-> & c & m & I & M & F)]; [left|right].
    + exists (Node k l). split; [reflexivity|]. cbn [encode]. now rewrite E, El.
    + split; [reflexivity|]. exists m. split; [eapply number_child; [exact I|exact M]|exact F].
Qed.
Example C88_foreign_case : decode (GNode 282 [GToken 2 (txt "a"); GNode 300 []]) = AssertionFailed.
Proof. vm_compute. reflexivity. Qed.

Print Assumptions C88_kinds_survive.
Print Assumptions C88_reading_is_defined.
Print Assumptions C88_numbers_differ.
Print Assumptions C88_trees_survive.
Print Assumptions C88_foreign_trees_are_read_or_refused.
