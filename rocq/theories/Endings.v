(** Line endings: what it means that two templates differ in indentation, empty lines and line
    endings only.  Specification for C67 and C68; it uses nothing of the
    parser. *)
From Coq Require Import NArith String Bool Arith List.
Import ListNotations.
From Verif Require Import Text Layout.
Local Open Scope list_scope.

(** A text with every carriage return before a line feed removed. *)
Fixpoint unix (s : text) : text :=
  match s with
  | [] => []
  | c :: s' =>
    match s' with
    | d :: _ => if N.eqb c 13 && N.eqb d 10 then unix s' else c :: unix s'
    | [] => [c]
    end
  end.

(** Lines without the empty ones; the last one is kept, as it tells whether the text ends with a
    line break. *)
Fixpoint solid (ls : list text) : list text :=
  match ls with
  | [] => []
  | l :: ls' =>
    match ls' with
    | [] => [l]
    | _ :: _ => match l with [] => solid ls' | _ :: _ => l :: solid ls' end
    end
  end.

(** Texts that differ in the indentation of their lines, in empty lines and in line endings only. *)
Definition layout (s : text) : list text := solid (map unindented (lines (unix s))).
Definition same_layout (s s' : text) : Prop := layout s = layout s'.

Definition ends_with (w l : text) : Prop := exists p, l = p ++ w.

(** What must not stand before a Windows line ending: a further carriage return, or one of the
    two operators of two words. *)
Definition unsteady : list text := [[13%N]; txt "not in"%string; txt "is not"%string].

(** No line with a Windows line ending ends like that. *)
Definition steady_line (l : text) : Prop := forall w, In w unsteady -> ~ ends_with (w ++ [13%N]) l.
Definition steady (s : text) : Prop := forall l, In l (removelast (lines s)) -> steady_line l.
