(** Naming conventions: crates/ludtwig/src/check/naming_convention.rs. *)
From Coq Require Import NArith Bool List String.
Import ListNotations.
From Verif Require Import Text.
Local Open Scope bool_scope.

(** The characters '_' and '-' used throughout naming_convention.rs. *)
Definition c_under : N := 95.
(** the character -, naming_convention.rs *)
Definition c_minus : N := 45.

(** naming_convention.rs:2-6, 34-38: the predicate / conversion selected by [screaming]
    (char::is_ascii_lowercase, is_ascii_uppercase, to_ascii_lowercase, to_ascii_uppercase). *)
Definition is_case (screaming : bool) (c : N) : bool :=
  if screaming then is_upper_ascii c else is_lower_ascii c.
(** naming_convention.rs:34-38 *)
Definition to_case (screaming : bool) (c : N) : N :=
  if screaming then to_upper_ascii c else to_lower_ascii c.

(** The peeked next character is one of the given ones. *)
Definition next_is (f : N -> bool) (r : text) : bool :=
  match r with [] => false | n :: _ => f n end.
(** Option::is_none of the peeked character, naming_convention.rs:13 *)
Definition is_none {A : Type} (l : list A) : bool := match l with [] => true | _ => false end.

(** naming_convention.rs:8-30: the loop; [first] is [idx == 0]. *)
Fixpoint snake_loop (screaming first : bool) (s : text) : bool :=
  match s with
  | [] => true
  | c :: r =>
    if (first || is_none r) && N.eqb c c_under then false
    else if negb (is_case screaming c) && negb (is_digit_ascii c) && negb (N.eqb c c_under) then false
    else if next_is (fun n => N.eqb c c_under && N.eqb n c_under) r then false
    else snake_loop screaming false r
  end.

(** naming_convention.rs:1-31 *)
Definition is_valid_ascii_alpha_snake_case (s : text) (screaming : bool) : bool :=
  snake_loop screaming true s.

(** [next] is an underline, a minus or an ASCII uppercase letter (lines 60, 142) *)
Definition next_places (n : N) : bool :=
  N.eqb n c_under || N.eqb n c_minus || is_upper_ascii n.

(** naming_convention.rs:40-78: the loop; gives what is pushed to [attempt]. *)
Fixpoint make_snake (screaming first : bool) (s : text) : text :=
  match s with
  | [] => []
  | c :: r =>
    let sep := N.eqb c c_minus || N.eqb c c_under in
    if (first || is_none r) && sep then make_snake screaming false r
    else if first && is_upper_ascii c then to_case screaming c :: make_snake screaming false r
    else if sep && next_is next_places r then make_snake screaming false r
    else if N.eqb c c_minus then c_under :: make_snake screaming false r
    else if is_upper_ascii c
         then c_under :: to_case screaming c :: make_snake screaming false r
         else to_case screaming c :: make_snake screaming false r
  end.

(** naming_convention.rs:33-86 *)
Definition try_make_snake_case (original : text) (screaming : bool) : option text :=
  let attempt := make_snake screaming true original in
  if is_valid_ascii_alpha_snake_case attempt screaming then Some attempt else None.

(** naming_convention.rs:100: [':', '@', '#'].contains(&c) *)
Definition kebab_prefix (c : N) : bool := N.eqb c 58 || N.eqb c 64 || N.eqb c 35.

(** naming_convention.rs:89-118 *)
Fixpoint kebab_loop (first : bool) (s : text) : bool :=
  match s with
  | [] => true
  | c :: r =>
    if (first || is_none r) && N.eqb c c_minus then false
    else if (if first then negb (is_lower_ascii c || is_digit_ascii c || kebab_prefix c)
             else negb (is_lower_ascii c || is_digit_ascii c || N.eqb c c_minus)) then false
    else if next_is (fun n => N.eqb c c_minus && N.eqb n c_minus) r then false
    else kebab_loop false r
  end.

(** naming_convention.rs:88-119 *)
Definition is_valid_alphanumeric_kebab_case (s : text) : bool := kebab_loop true s.

(** naming_convention.rs:122-160: the loop *)
Fixpoint make_kebab (first : bool) (s : text) : text :=
  match s with
  | [] => []
  | c :: r =>
    let sep := N.eqb c c_minus || N.eqb c c_under in
    if (first || is_none r) && sep then make_kebab false r
    else if first && is_upper_ascii c then to_lower_ascii c :: make_kebab false r
    else if sep && next_is next_places r then make_kebab false r
    else if N.eqb c c_under then c_minus :: make_kebab false r
    else if is_upper_ascii c
         then c_minus :: to_lower_ascii c :: make_kebab false r
         else to_lower_ascii c :: make_kebab false r
  end.

(** naming_convention.rs:121-168 *)
Definition try_make_kebab_case (original : text) : option text :=
  let attempt := make_kebab true original in
  if is_valid_alphanumeric_kebab_case attempt then Some attempt else None.

(** [str::trim_start_matches('_')] (line 175) *)
Fixpoint trim_under (s : text) : text :=
  match s with
  | c :: r => if N.eqb c c_under then trim_under r else s
  | [] => []
  end.

(** naming_convention.rs:174-188 *)
Definition is_camel_case (name : text) : bool :=
  match trim_under name with
  | [] => true
  | first :: r =>
    if negb (is_lower_ascii first) then false
    else negb (existsb (N.eqb c_under) (first :: r)) && negb (existsb (N.eqb c_minus) (first :: r))
  end.
