(** Vocabulary for stating properties of syntax trees, independent of how the parser builds
    them. *)
From Coq Require Import NArith Bool List.
Import ListNotations.
From Verif Require Import Text Kind Lexer Machine.

(** The tokens of a tree in order. *)
Fixpoint leaves (t : tree) : list (kind * text) :=
  match t with
  | Leaf k s => [(k, s)]
  | Node _ cs => flat_map leaves cs
  end.

(** The text of a tree. *)
Definition tree_text (t : tree) : text := concat (map snd (leaves t)).

(** A text that starts with a letter. *)
Definition letter_first (s : text) : Prop :=
  exists c w, s = c :: w /\ ((65 <= c <= 90) \/ (97 <= c <= 122))%N.

(** [merges ls ts]: the leaves [ls] are the tokens [ts] in order with their texts; a leaf has
    its token's kind or is a word, and a colon together with the following token can be one
    word if that token starts with a letter.  White space and line breaks never become words. *)
Inductive merges : list (kind * text) -> list token -> Prop :=
| merges_nil : merges [] []
| merges_tok k t ls ts : k = tk_kind t \/ (k = TK_WORD /\ is_trivia (tk_kind t) = false) -> merges ls ts ->
    merges ((k, tk_text t) :: ls) (t :: ts)
| merges_colon c t ls ts : tk_kind c = TK_COLON -> letter_first (tk_text t) -> merges ls ts ->
    merges ((TK_WORD, tk_text c ++ tk_text t) :: ls) (c :: t :: ts).

(** [subtree t' t]: [t'] occurs in [t]. *)
Inductive subtree (t : tree) : tree -> Prop :=
| sub_refl : subtree t t
| sub_child k cs c : In c cs -> subtree t c -> subtree t (Node k cs).

Definition tree_kind (t : tree) : kind := match t with Leaf k _ => k | Node k _ => k end.
Definition children (t : tree) : list tree := match t with Leaf _ _ => [] | Node _ cs => cs end.
