(** Regular expressions over text: the fragment used by the lexer's patterns
    (untyped.rs:43-59) and by the line-ending rules.  [rlong] computes the longest
    matching prefix by derivatives; [rmatch] is the usual language semantics. *)
From Coq Require Import List NArith Bool Lia.
Import ListNotations.
From Verif Require Import Text.

(** A character class: a list of inclusive ranges. *)
Definition cclass := list (N * N).
(** a character class of a regex; logos library, no counterpart in /repo *)
Definition in_class (cl : cclass) (c : N) : bool :=
  existsb (fun p => in_range (fst p) (snd p) c) cl.

(** Regex syntax (regex-syntax crate fragment). *)
Inductive regex : Set :=
| REmpty
| REps
| RClass (cl : cclass)
| RSeq (a b : regex)
| RAlt (a b : regex)
| RStar (a : regex).

(** [a+] and [a?]. *)
Definition RPlus (a : regex) : regex := RSeq a (RStar a).
(** [r?] of a logos regex (syntax/untyped.rs:43-59) *)
Definition ROpt (a : regex) : regex := RAlt a REps.
(** one character of a logos regex (syntax/untyped.rs:43-59) *)
Definition RChar (c : N) : regex := RClass [(c, c)].

(** Language semantics. *)
Inductive rmatch : regex -> text -> Prop :=
| MEps : rmatch REps []
| MClass cl c : in_class cl c = true -> rmatch (RClass cl) [c]
| MSeq a b s t : rmatch a s -> rmatch b t -> rmatch (RSeq a b) (s ++ t)
| MAltL a b s : rmatch a s -> rmatch (RAlt a b) s
| MAltR a b s : rmatch b s -> rmatch (RAlt a b) s
| MStar0 a : rmatch (RStar a) []
| MStarS a s t : rmatch a s -> rmatch (RStar a) t -> rmatch (RStar a) (s ++ t).

(** does the regex match the empty text; logos library, no counterpart in /repo *)
Fixpoint nullable (r : regex) : bool :=
  match r with
  | REmpty => false
  | REps => true
  | RClass _ => false
  | RSeq a b => nullable a && nullable b
  | RAlt a b => nullable a || nullable b
  | RStar _ => true
  end.

(** Simplifying constructors keep derivatives small. *)
Definition sseq (a b : regex) : regex :=
  match a with
  | REmpty => REmpty
  | REps => b
  | _ => match b with REmpty => REmpty | REps => a | _ => RSeq a b end
  end.
(** alternative with trivial simplification; no counterpart in /repo *)
Definition salt (a b : regex) : regex :=
  match a with
  | REmpty => b
  | _ => match b with REmpty => a | _ => RAlt a b end
  end.

(** derivative of a regex; how logos matches is not modelled, no counterpart in /repo *)
Fixpoint deriv (c : N) (r : regex) : regex :=
  match r with
  | REmpty => REmpty
  | REps => REmpty
  | RClass cl => if in_class cl c then REps else REmpty
  | RSeq a b =>
    if nullable a
    then salt (sseq (deriv c a) b) (deriv c b)
    else sseq (deriv c a) b
  | RAlt a b => salt (deriv c a) (deriv c b)
  | RStar a => sseq (deriv c a) (RStar a)
  end.

(** no match possible any more; no counterpart in /repo *)
Definition is_rempty (r : regex) : bool := match r with REmpty => true | _ => false end.

(** Longest prefix of [s] matched by [r], as a number of chars; [n] chars have been
    consumed so far, [best] is the longest match seen so far. *)
Fixpoint rlong_go (r : regex) (s : text) (n : nat) (best : option nat) : option nat :=
  let best' := if nullable r then Some n else best in
  match s with
  | [] => best'
  | c :: s' =>
    let d := deriv c r in
    if is_rempty d then best' else rlong_go d s' (S n) best'
  end.
(** longest match, the contract of the logos library; no counterpart in /repo *)
Definition rlong (r : regex) (s : text) : option nat := rlong_go r s 0 None.
