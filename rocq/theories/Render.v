(** Rendering of parse errors and comparison of trees, used by the conformance tests. *)
From Coq Require Import List NArith String Bool.
Import ListNotations.
From Verif Require Import Text Kind Lexer ParserApi GrammarTags Machine.
Local Open Scope string_scope.
Local Open Scope list_scope.

(** for the conformance tests only; no counterpart in /repo *)
Fixpoint tree_eqb (a b : tree) : bool :=
  match a, b with
  | Leaf k s, Leaf k' s' => kind_eqb k k' && text_eqb s s'
  | Node k cs, Node k' cs' =>
    kind_eqb k k' &&
    (fix go (l l' : list tree) : bool :=
       match l, l' with
       | [], [] => true
       | x :: l, y :: l' => tree_eqb x y && go l l'
       | _, _ => false
       end) cs cs'
  | _, _ => false
  end.

(** parse_error.rs:50-59 expected_message; [None]: the Display of the found kind is
    unreachable!() *)
Definition expected_message (e : perror) : option text :=
  match err_found e with
  | Some k =>
    match kind_display k with
    | Some d => Some (txt "expected " ++ err_expected e ++ txt " but found " ++ txt d)
    | None => None
    end
  | None => Some (txt "expected " ++ err_expected e ++ txt " but reached end of file")
  end.

(** parse_error.rs:61-72 Display for ParseError *)
Definition error_display (e : perror) : option text :=
  option_map (fun m => txt "error at " ++ nat_text (err_start e) ++ txt ".."
                         ++ nat_text (err_end e) ++ txt ": " ++ m) (expected_message e).

(** for the conformance tests only; no counterpart in /repo *)
Definition ptest : Set := text * tree * list text.
(** for the conformance tests only; no counterpart in /repo *)
Definition ptest_ok (dbg : bool) (t : ptest) : bool :=
  let '(src, exp, errs) := t in
  match parse_src dbg src with
  | OK (tr, es) =>
    tree_eqb tr exp && Nat.eqb (List.length es) (List.length errs)
    && forallb (fun p => match error_display (fst p) with
                         | Some m => text_eqb m (snd p) | None => false end) (combine es errs)
  | _ => false
  end.
(** for the conformance tests only; no counterpart in /repo *)
Definition failing (dbg : bool) (l : list ptest) : list text :=
  map (fun t => fst (fst t)) (filter (fun t => negb (ptest_ok dbg t)) l).
