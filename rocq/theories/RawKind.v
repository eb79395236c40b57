(** Kinds as numbers: how kinds get into rowan's tree and out of it again. *)
From Coq Require Import NArith List.
Import ListNotations.
From Verif Require Import Text Kind Machine.
Local Open Scope N_scope.

(** untyped.rs:38-552 enum SyntaxKind: the variants in the order of their declaration, each
    with the number written behind it, if any (only the first, line 44, has one). *)
Definition declaration : list (kind * option N) :=
  match all_kinds with
  | [] => []
  | k :: ks => (k, Some 0) :: map (fun k => (k, None)) ks
  end.

(** untyped.rs:37-552 the numbers of the variants, by the rule of the Rust reference (items,
    enumerations): the number written there, otherwise one more than that of the variant before. *)
Fixpoint number (next : N) (l : list (kind * option N)) : list (kind * N) :=
  match l with
  | [] => []
  | (k, o) :: l' => let n := match o with Some n => n | None => next end in (k, n) :: number (n + 1) l'
  end.
(** untyped.rs:37-552 the numbers of the variants, numbering begins with 0 *)
Definition numbers : list (kind * N) := number 0 declaration.

(** untyped.rs:37 repr(u16): what fits into the stored number *)
Definition u16_limit : N := 65536.

(** untyped.rs:943-947, 960-962 From<SyntaxKind> for rowan::SyntaxKind, kind_to_raw: [kind as u16].
    That every kind has a number is proved (to_raw_total in PropRawKind.v), 0 stands for none. *)
Definition kind_to_raw (k : kind) : N :=
  match find (fun x => kind_eqb (fst x) k) numbers with
  | Some x => snd x mod u16_limit
  | None => 0
  end.

(** untyped.rs:956-959 what kind_from_raw can do: give a kind, stop at the assertion, or make a
    value of the enum out of a number no variant has, which is undefined behaviour. *)
Inductive reading (A : Type) : Type :=
| Read (a : A)
| AssertionFailed
| Undefined.
Arguments Read {A} a.
Arguments AssertionFailed {A}.
Arguments Undefined {A}.

(** untyped.rs:956-959 kind_from_raw: the assertion (line 957), then transmute (line 958), which
    gives the variant with this number. *)
Definition kind_from_raw (n : N) : reading kind :=
  if n <=? kind_to_raw ROOT then
    match find (fun x => snd x =? n) numbers with
    | Some x => Read (fst x)
    | None => Undefined
    end
  else AssertionFailed.

(** untyped.rs:21 rowan's GreenNode: as Machine.tree, but with numbers instead of kinds. *)
Inductive green : Set :=
| GToken (n : N) (s : text)
| GNode (n : N) (cs : list green).

(** sink.rs:81,121,130,141 the kinds given to the builder *)
Fixpoint encode (t : tree) : green :=
  match t with
  | Leaf k s => GToken (kind_to_raw k) s
  | Node k cs => GNode (kind_to_raw k) (map encode cs)
  end.

(** all readings of a list, the first that fails decides (in document order, as a walk over
    the whole tree does; untyped.rs:956-959 is called for each element a walk comes to) *)
Fixpoint read_all {A : Type} (l : list (reading A)) : reading (list A) :=
  match l with
  | [] => Read []
  | Read a :: l' => match read_all l' with Read r => Read (a :: r) | AssertionFailed => AssertionFailed | Undefined => Undefined end
  | AssertionFailed :: _ => AssertionFailed
  | Undefined :: _ => Undefined
  end.

(** untyped.rs:956-959, 970-972: a walk over a SyntaxNode that asks each element for its kind *)
Fixpoint decode (g : green) : reading tree :=
  match g with
  | GToken n s => match kind_from_raw n with Read k => Read (Leaf k s) | AssertionFailed => AssertionFailed | Undefined => Undefined end
  | GNode n cs =>
    match kind_from_raw n with
    | Read k => match read_all (map decode cs) with Read l => Read (Node k l) | AssertionFailed => AssertionFailed | Undefined => Undefined end
    | AssertionFailed => AssertionFailed
    | Undefined => Undefined
    end
  end.
