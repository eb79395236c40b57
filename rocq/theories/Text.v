(** Text as sequences of Unicode scalar values, with UTF-8 byte lengths.

    A Rust [&str] is modelled by the list of its [char]s (a [char] is its scalar
    value in [N]).  Byte offsets ([TextSize], [usize]) are [nat].  Files of 4 GB and
    more (overflow of the u32 in [TextSize]) are out of scope. *)
From Coq Require Import List NArith String Ascii Bool Lia.
Import ListNotations.

(** Rust [str]: its sequence of [char]s (no file in /repo; language type). *)
Definition text := list N.

(** [char::len_utf8], used by every byte offset of the project
    (e.g. lexer.rs:14-18 spans, check.rs:34-40 ranges). *)
Definition utf8_len (c : N) : nat :=
  if (c <? 128)%N then 1
  else if (c <? 2048)%N then 2
  else if (c <? 65536)%N then 3 else 4.

(** [str::len]: length in bytes. *)
Fixpoint blen (t : text) : nat :=
  match t with
  | [] => 0
  | c :: r => utf8_len c + blen r
  end.

(** String literals of the source code as [text]; only used for ASCII literals. *)
Fixpoint txt (s : string) : text :=
  match s with
  | EmptyString => []
  | String a r => N_of_ascii a :: txt r
  end.

(** [str::eq]. *)
Fixpoint text_eqb (a b : text) : bool :=
  match a, b with
  | [], [] => true
  | x :: a', y :: b' => N.eqb x y && text_eqb a' b'
  | _, _ => false
  end.

(** [str::starts_with]. *)
Fixpoint starts_with (p t : text) : bool :=
  match p, t with
  | [], _ => true
  | x :: p', y :: t' => N.eqb x y && starts_with p' t'
  | _ :: _, [] => false
  end.

(** [&str[i..]] / [str::split_at] at a byte offset; [None] is the panic that Rust
    raises when the offset is out of range or not on a char boundary. *)
Fixpoint bsplit (i : nat) (t : text) : option (text * text) :=
  match i with
  | 0 => Some ([], t)
  | _ =>
    match t with
    | [] => None
    | c :: r =>
      if Nat.leb (utf8_len c) i
      then match bsplit (i - utf8_len c) r with
           | Some (a, b) => Some (c :: a, b)
           | None => None
           end
      else None
    end
  end.

(** ASCII classes used by the rules and the lexer ([char::is_ascii_*]). *)
Definition in_range (a b c : N) : bool := (N.leb a c && N.leb c b)%bool.
(** char::is_ascii_uppercase (std) *)
Definition is_upper_ascii (c : N) : bool := in_range 65 90 c.
(** char::is_ascii_lowercase (std) *)
Definition is_lower_ascii (c : N) : bool := in_range 97 122 c.
(** char::is_ascii_digit (std) *)
Definition is_digit_ascii (c : N) : bool := in_range 48 57 c.
(** char::is_ascii_alphabetic (std) *)
Definition is_alpha_ascii (c : N) : bool := is_upper_ascii c || is_lower_ascii c.
(** char::to_ascii_lowercase (std) *)
Definition to_lower_ascii (c : N) : N := if is_upper_ascii c then c + 32 else c.
(** char::to_ascii_uppercase (std) *)
Definition to_upper_ascii (c : N) : N := if is_lower_ascii c then c - 32 else c.
