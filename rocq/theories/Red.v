(** Elements of a syntax tree with their position: rowan's red tree (SyntaxNode, SyntaxToken,
    SyntaxElement of untyped.rs:965-976) as a zipper over the green tree. *)
From Coq Require Import NArith Bool Arith List.
Import ListNotations.
From Verif Require Import Text Kind Machine TreeSpec.

(** Length of a tree's text in bytes (rowan GreenNode::text_len). *)
Fixpoint tree_len (t : tree) : nat :=
  match t with
  | Leaf _ s => blen s
  | Node _ cs => fold_right (fun c n => tree_len c + n) 0 cs
  end.

(** One step up: kind and start of the parent, left siblings (nearest first), right siblings. *)
Record crumb : Set := mkCrumb
  { cr_kind : kind; cr_off : nat; cr_left : list tree; cr_right : list tree }.

(** rowan SyntaxElement: a tree with the offset of its first byte and its ancestors. *)
Record elem : Set := mkElem { el_tree : tree; el_off : nat; el_path : list crumb }.

(** SyntaxNode::new_root *)
Definition root_elem (t : tree) : elem := mkElem t 0 [].

(** rowan NodeOrToken::as_node, library *)
Definition is_node (t : tree) : bool := match t with Node _ _ => true | Leaf _ _ => false end.

(** SyntaxElement::kind *)
Definition el_kind (e : elem) : kind := tree_kind (el_tree e).
(** SyntaxToken::text, SyntaxNode::text *)
Definition el_text (e : elem) : text := tree_text (el_tree e).
(** SyntaxElement::text_range: start and end *)
Definition el_start (e : elem) : nat := el_off e.
(** rowan text_range().end(), library *)
Definition el_end (e : elem) : nat := el_off e + tree_len (el_tree e).

(** SyntaxElement::parent *)
Definition parent (e : elem) : option elem :=
  match el_path e with
  | [] => None
  | c :: p => Some (mkElem (Node (cr_kind c) (rev_append (cr_left c) (el_tree e :: cr_right c)))
                           (cr_off c) p)
  end.

(** SyntaxElement::prev_sibling_or_token *)
Definition prev_sibling_or_token (e : elem) : option elem :=
  match el_path e with
  | c :: p =>
    match cr_left c with
    | t :: l => Some (mkElem t (el_off e - tree_len t)
                        (mkCrumb (cr_kind c) (cr_off c) l (el_tree e :: cr_right c) :: p))
    | [] => None
    end
  | [] => None
  end.

(** SyntaxElement::next_sibling_or_token *)
Definition next_sibling_or_token (e : elem) : option elem :=
  match el_path e with
  | c :: p =>
    match cr_right c with
    | t :: r => Some (mkElem t (el_off e + tree_len (el_tree e))
                        (mkCrumb (cr_kind c) (cr_off c) (el_tree e :: cr_left c) r :: p))
    | [] => None
    end
  | [] => None
  end.

(** Repeat a sibling step until it reaches a node; [n] bounds the number of siblings. *)
Fixpoint until_node (step : elem -> option elem) (n : nat) (e : elem) : option elem :=
  match n with
  | 0 => None
  | S n' =>
    match step e with
    | None => None
    | Some e' => if is_node (el_tree e') then Some e' else until_node step n' e'
    end
  end.

(** rowan: number of earlier siblings, library *)
Definition left_count (e : elem) : nat :=
  match el_path e with c :: _ => length (cr_left c) | [] => 0 end.
(** rowan: number of later siblings, library *)
Definition right_count (e : elem) : nat :=
  match el_path e with c :: _ => length (cr_right c) | [] => 0 end.

(** SyntaxNode::prev_sibling: the nearest previous sibling that is a node *)
Definition prev_sibling (e : elem) : option elem :=
  until_node prev_sibling_or_token (left_count e) e.
(** SyntaxNode::next_sibling *)
Definition next_sibling (e : elem) : option elem :=
  until_node next_sibling_or_token (right_count e) e.

(** The elements for the children [cs] of a node of kind [k] at [off], where [left] (reversed)
    comes first and [o] is the offset of the first of [cs]. *)
Fixpoint elems_of (k : kind) (off : nat) (p : list crumb) (left : list tree) (o : nat) (cs : list tree)
  : list elem :=
  match cs with
  | [] => []
  | c :: r => mkElem c o (mkCrumb k off left r :: p)
              :: elems_of k off p (c :: left) (o + tree_len c) r
  end.

(** SyntaxNode::children_with_tokens *)
Definition children_with_tokens (e : elem) : list elem :=
  match el_tree e with
  | Leaf _ _ => []
  | Node k cs => elems_of k (el_off e) (el_path e) [] (el_off e) cs
  end.

(** SyntaxNode::children *)
Definition child_nodes (e : elem) : list elem :=
  filter (fun c => is_node (el_tree c)) (children_with_tokens e).
(** The tokens among the children (filter_map(NodeOrToken::into_token)). *)
Definition child_tokens (e : elem) : list elem :=
  filter (fun c => negb (is_node (el_tree c))) (children_with_tokens e).

(** SyntaxElement::first_token *)
Fixpoint first_token_at (t : tree) (off : nat) (p : list crumb) : option elem :=
  match t with
  | Leaf _ _ => Some (mkElem t off p)
  | Node _ [] => None
  | Node k (c :: r) => first_token_at c off (mkCrumb k off [] r :: p)
  end.
(** rowan SyntaxNode::first_token, library *)
Definition first_token (e : elem) : option elem := first_token_at (el_tree e) (el_off e) (el_path e).

(** SyntaxElement::last_token *)
Fixpoint last_token_at (t : tree) (off : nat) (p : list crumb) : option elem :=
  match t with
  | Leaf _ _ => Some (mkElem t off p)
  | Node k cs =>
    (fix go (left : list tree) (o : nat) (cs : list tree) : option elem :=
       match cs with
       | [] => None
       | [c] => last_token_at c o (mkCrumb k off left [] :: p)
       | c :: r => go (c :: left) (o + tree_len c) r
       end) [] off cs
  end.
(** rowan SyntaxNode::last_token, library *)
Definition last_token (e : elem) : option elem := last_token_at (el_tree e) (el_off e) (el_path e).

(** SyntaxToken::next_token: the first token of the next sibling of the element or, failing
    that, of its nearest ancestor with one; [n] bounds the number of ancestors. *)
Fixpoint next_token_up (n : nat) (e : elem) : option elem :=
  match next_sibling_or_token e with
  | Some s => first_token s
  | None =>
    match n, parent e with
    | S n', Some p => next_token_up n' p
    | _, _ => None
    end
  end.
(** rowan SyntaxToken::next_token, library *)
Definition next_token (e : elem) : option elem := next_token_up (length (el_path e)) e.

(** * Pre-order walk

    SyntaxNode::preorder_with_tokens / preorder with the loop of the caller: [enter] and
    [leave] handle WalkEvent::Enter and WalkEvent::Leave; [enter] says whether
    skip_subtree() was called, in which case the next event is the Leave of the same element.
    A panic of a handler ends the walk. *)
Inductive out (A : Type) : Type := Done (a : A) | Crashed.
Arguments Done {A} a.
Arguments Crashed {A}.

Section Walk.
  Context {S : Type} (tokens : bool).
  Context (enter : S -> elem -> out (S * bool)) (leave : S -> elem -> out S).

  (** rowan preorder and preorder_with_tokens with skip_subtree, library *)
  Fixpoint walk (t : tree) (off : nat) (p : list crumb) (s : S) : out S :=
    let e := mkElem t off p in
    match enter s e with
    | Crashed => Crashed
    | Done (s1, skip) =>
      match
        (if skip then Done s1 else
         match t with
         | Leaf _ _ => Done s1
         | Node k cs =>
           (fix go (left : list tree) (o : nat) (cs : list tree) (s : S) : out S :=
              match cs with
              | [] => Done s
              | c :: r =>
                match (if tokens || is_node c
                       then walk c o (mkCrumb k off left r :: p) s else Done s) with
                | Crashed => Crashed
                | Done s' => go (c :: left) (o + tree_len c) r s'
                end
              end) [] off cs s1
         end)
      with
      | Crashed => Crashed
      | Done s2 => leave s2 e
      end
    end.

  (** the same from the root (check.rs:59) *)
  Definition walk_root (t : tree) (s : S) : out S := walk t 0 [] s.
End Walk.
