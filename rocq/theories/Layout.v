(** Layout: what it means that two templates differ in white space only.  Specification for
    C50; it uses nothing of the parser but its tokens and trees. *)
From Coq Require Import NArith Bool Arith List.
Import ListNotations.
From Verif Require Import Text Kind Lexer Machine ParserApi.

(** A tree without its white space (untyped.rs:43-46, the kinds of [is_trivia]). *)
Fixpoint bare (t : tree) : list tree :=
  match t with
  | Leaf k s => if is_trivia k then [] else [Leaf k s]
  | Node k cs => [Node k (flat_map bare cs)]
  end.

(** Two errors that say the same, wherever they are. *)
Definition same_error (e e' : perror) : Prop :=
  err_found e = err_found e' /\ err_expected e = err_expected e'.

(** The lines of a text: the parts between the line feeds. *)
Fixpoint lines (s : text) : list text :=
  match s with
  | [] => [[]]
  | c :: s' =>
    if N.eqb c 10 then [] :: lines s'
    else match lines s' with
         | l :: ls => (c :: l) :: ls
         | [] => [[c]]
         end
  end.

(** A line without the blanks and tabs in front. *)
Fixpoint unindented (l : text) : text :=
  match l with
  | c :: l' => if N.eqb c 32 || N.eqb c 9 then unindented l' else l
  | [] => []
  end.

(** Texts that differ in the indentation of their lines only. *)
Definition same_lines (s s' : text) : Prop := map unindented (lines s) = map unindented (lines s').

(** Tokens with the same kind and text. *)
Definition same_tok (t t' : token) : Prop := tk_kind t = tk_kind t' /\ tk_text t = tk_text t'.

(** A white-space token: its kind, and a text that starts with a blank, tab, line feed or
    carriage return. *)
Definition blank (t : token) : Prop :=
  is_trivia (tk_kind t) = true /\
  exists c s, tk_text t = c :: s /\ (c = 32 \/ c = 9 \/ c = 10 \/ c = 13)%N.

Definition head_kind (l : list token) : option kind :=
  match l with [] => None | t :: _ => Some (tk_kind t) end.

(** Token lists with the same tokens except for white space, which may be replaced by
    other white space of the same first kind but neither removed nor inserted. *)
Inductive same_but_blanks : list token -> list token -> Prop :=
| SB_end g g' : Forall blank g -> Forall blank g' -> head_kind g = head_kind g' -> same_but_blanks g g'
| SB_tok g g' t t' r r' :
    Forall blank g -> Forall blank g' -> head_kind g = head_kind g' ->
    is_trivia (tk_kind t) = false -> same_tok t t' -> same_but_blanks r r' ->
    same_but_blanks (g ++ t :: r) (g' ++ t' :: r').

(** Two parses with the same outcome: the same tree up to white space and the same errors
    in the same order, or the same panic. *)
Definition same_parse (x x' : res (tree * list perror)) : Prop :=
  match x, x' with
  | OK (t, errs), OK (t', errs') => bare t = bare t' /\ Forall2 same_error errs errs'
  | Panicked q, Panicked q' => q = q'
  | _, _ => False
  end.
