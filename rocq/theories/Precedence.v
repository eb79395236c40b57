(** How operators are grouped (C11).  This is a specification; it refers to syntax trees and to a
    table of the operators of Twig, not to the parser. *)
From Coq Require Import NArith String Bool Arith List.
Import ListNotations.
From Verif Require Import Text Kind Machine TreeSpec Schema.
Local Open Scope list_scope.

(** [Low]: what takes everything up to the end of the expression: the parts of a conditional,
    the body of an arrow function, the argument of a test without parentheses. *)
Inductive opr : Set := Low | Pre (k : kind) | Bin (k : kind).

(** From the loosest to the tightest, as in the documentation of Twig. *)
Definition level (o : opr) : option nat :=
  match o with
  | Low => Some 0
  | Bin (TK_OR | TK_DOUBLE_PIPE) => Some 1
  | Bin (TK_AND | TK_DOUBLE_AMPERSAND) => Some 2
  | Bin TK_BINARY_OR => Some 3
  | Bin TK_BINARY_XOR => Some 4
  | Bin TK_BINARY_AND => Some 5
  | Bin (TK_DOUBLE_EQUAL | TK_EXCLAMATION_MARK_EQUALS | TK_LESS_THAN_EQUAL_GREATER_THAN | TK_LESS_THAN | TK_GREATER_THAN
        | TK_GREATER_THAN_EQUAL | TK_LESS_THAN_EQUAL | TK_IN | TK_NOT_IN | TK_MATCHES | TK_STARTS_WITH | TK_ENDS_WITH
        | TK_TRIPLE_EQUAL | TK_EXCLAMATION_MARK_DOUBLE_EQUALS) => Some 6
  | Bin TK_DOUBLE_DOT => Some 7
  | Bin (TK_PLUS | TK_MINUS) => Some 8
  | Bin TK_TILDE => Some 9
  | Pre TK_NOT => Some 10
  | Bin (TK_STAR | TK_FORWARD_SLASH | TK_DOUBLE_FORWARD_SLASH | TK_PERCENT) => Some 11
  | Bin (TK_IS | TK_IS_NOT) => Some 12
  | Bin TK_DOUBLE_STAR => Some 13
  | Bin TK_DOUBLE_QUESTION_MARK => Some 14
  | Pre (TK_PLUS | TK_MINUS) => Some 15
  | Pre TK_TRIPLE_DOT => Some 16
  | _ => None
  end.
Definition right_associative (o : opr) : bool :=
  match o with Low | Bin TK_DOUBLE_STAR | Bin TK_DOUBLE_QUESTION_MARK => true | _ => false end.

Definition looser (a b : opr) : Prop := exists i j, level a = Some i /\ level b = Some j /\ i < j.
Definition alike (a b : opr) : Prop := exists i, level a = Some i /\ level b = Some i.
(** [o] may end the left operand of [k]: [(x o y) k z]. *)
Definition may_end_left (o k : opr) : Prop := looser k o \/ (alike k o /\ right_associative k = false).
(** [o] may begin the right operand of [k]: [x k (y o z)]. *)
Definition may_begin_right (o k : opr) : Prop := looser k o \/ (alike k o /\ right_associative k = true).

(** * Operators at the edges of an expression *)
Definition is_part (t : tree) : bool := match t with Leaf _ _ | Node ERROR _ => false | Node _ _ => true end.
Definition operands_of (cs : list tree) : list tree := filter is_part cs.
Fixpoint operator (prefix : bool) (cs : list tree) : option kind :=
  match cs with
  | [] => None
  | Leaf k _ :: cs' => match level (if prefix then Pre k else Bin k) with Some _ => Some k | None => operator prefix cs' end
  | Node _ _ :: cs' => operator prefix cs'
  end.
Definition is_open_parenthesis (t : tree) : bool := match t with Leaf TK_OPEN_PARENTHESIS _ => true | _ => false end.

(** The operators that take everything up to the end of the expression as their right operand,
    unless that is enclosed in parentheses; [None]: the last operand is missing. *)
Fixpoint right_edge (t : tree) : option (list opr) :=
  match t with
  | Leaf _ _ => Some []
  | Node k cs =>
    let last := fold_left (fun acc c =>
      match c with
      | Leaf k' _ => if junk k' then acc else None
      | Node ERROR _ => None
      | Node TWIG_ARGUMENTS _ => match k with TWIG_FUNCTION_CALL => right_edge c | _ => None end
      | Node _ _ => right_edge c
      end) cs None in
    let with_last o := match last with Some os => Some (o :: os) | None => None end in
    match k with
    | TWIG_EXPRESSION | TWIG_FUNCTION_CALL => last
    | TWIG_BINARY_EXPRESSION => match operator false cs with Some op => with_last (Bin op) | None => None end
    | TWIG_UNARY_EXPRESSION => match operator true cs with Some op => with_last (Pre op) | None => None end
    | TWIG_CONDITIONAL_EXPRESSION | TWIG_ARROW_FUNCTION => with_last Low
    | TWIG_ARGUMENTS => if existsb is_open_parenthesis cs then Some [] else with_last Low
    | _ => Some []
    end
  end.

(** The operators that have everything from the beginning of the expression on as their left operand. *)
Fixpoint left_edge (t : tree) : list opr :=
  match t with
  | Leaf _ _ => []
  | Node k cs =>
    let first := (fix first (cs : list tree) : list opr :=
      match cs with
      | [] => []
      | c :: cs' => if is_part c then left_edge c else first cs'
      end) cs in
    match k with
    | TWIG_EXPRESSION => first
    | TWIG_BINARY_EXPRESSION => match operator false cs with Some op => Bin op :: first | None => first end
    | TWIG_CONDITIONAL_EXPRESSION => Low :: first
    | _ => []
    end
  end.

(** * The condition on a single node *)
Definition ends_left (o : opr) (t : tree) : Prop :=
  match right_edge t with Some os => Forall (fun x => may_end_left x o) os | None => True end.
Definition begins_right (o : opr) (t : tree) : Prop := Forall (fun x => may_begin_right x o) (left_edge t).

Definition grouped (k : kind) (cs : list tree) : Prop :=
  match k with
  | TWIG_BINARY_EXPRESSION =>
    exists op x ys, operator false cs = Some op /\ operands_of cs = x :: ys /\
      ends_left (Bin op) x /\ Forall (begins_right (Bin op)) ys
  | TWIG_UNARY_EXPRESSION =>
    exists op, operator true cs = Some op /\ Forall (begins_right (Pre op)) (operands_of cs)
  | TWIG_CONDITIONAL_EXPRESSION =>
    exists x ys, operands_of cs = x :: ys /\ ends_left Low x
  | _ => True
  end.
