(** The tree machine: the parser's primitives acting on trees instead of events.

    It is a specification device for Machine.v, not a model of separate code: instead of an
    event list (event.rs) that the sink (sink.rs) later turns into a tree, the state holds
    the finished children of the innermost open node and a stack of open nodes.
    Simulation.v proves that the concrete machine followed by the sink computes the same. *)
From Coq Require Import NArith Bool Arith List.
Import ListNotations.
From Verif Require Import Text Kind Lexer ParserApi GrammarHtml Machine.

(** One finished child of an open node. [tr] are trivia tokens emitted in front of it. *)
Inductive item : Set :=
| ITok (tr : list token) (k : kind) (ts : list token)   (* EToken, ENextN *)
| ITriv (tr : list token)                               (* ETrivia *)
| INode (m : nat) (t : tree)                            (* completed node with its marker *)
| ILock (t : tree).                                     (* completed node that has got a forward parent *)

Definition leaf (t : token) : tree := Leaf (tk_kind t) (tk_text t).
Definition item_trees (i : item) : list tree :=
  match i with
  | ITok tr k ts => map leaf tr ++ [Leaf k (concat (map tk_text ts))]
  | ITriv tr => map leaf tr
  | INode _ t => [t]
  | ILock t => [t]
  end.
Definition trees (its : list item) : list tree := flat_map item_trees its.

(** A completed node that can no longer get a forward parent. *)
Definition lock (i : item) : item := match i with INode _ t => ILock t | _ => i end.

Fixpoint take_trivia (l : list token) : list token :=
  match l with
  | t :: l' => if is_trivia (tk_kind t) then t :: take_trivia l' else []
  | [] => []
  end.

(** [t_rest]: tokens from the parser's cursor on (source.rs); [t_snk]: tokens from the
    sink's cursor on (sink.rs:22); [t_stack]: open nodes, innermost first, each with its
    marker and the finished children of its parent; [t_nev]: number of events so far. *)
Record tstate : Set := mkT {
  t_rest : list token; t_snk : list token; t_items : list item;
  t_stack : list (nat * list item); t_nev : nat; t_errs : list perror }.

(** The last completed node with marker [c]. *)
Fixpoint split_node (c : nat) (its : list item) : option (list item * tree * list item) :=
  match its with
  | [] => None
  | i :: r =>
    match split_node c r with
    | Some (a, t, b) => Some (i :: a, t, b)
    | None =>
      match i with
      | INode m t => if Nat.eqb m c then Some ([], t, r) else None
      | _ => None
      end
    end
  end.

(** The primitives (see [cstep] in Machine.v for the source lines). [strict]: reporting a
    syntax error aborts; used to reason about error-free runs only. *)
Definition tstep (strict dbg : bool) (T : list token) (B : Set) (o : op B) (s : tstate)
  : res (B * tstate) :=
  let rest' := drop_trivia (t_rest s) in
  match o in op B return res (B * tstate) with
  | Look => OK (rest', mkT rest' (t_snk s) (t_items s) (t_stack s) (t_nev s) (t_errs s))
  | GetPos => OK (length T - length (t_rest s), s)
  | BumpAs site as_ =>
    match rest' with
    | [] => Panicked (PBump site)
    | t :: ts =>
      match drop_trivia (t_snk s) with
      | [] => Panicked PStuck
      | u :: us =>
        let k := match as_ with Some k => k | None => tk_kind t end in
        OK (mkTok k (tk_text t) (tk_start t) (tk_end t),
            mkT ts us (t_items s ++ [ITok (take_trivia (t_snk s)) k [u]])
                (t_stack s) (S (t_nev s)) (t_errs s))
      end
    end
  | BumpN n k =>
    let consumed := firstn n rest' in
    if Nat.eqb (length consumed) n then
      let snk' := drop_trivia (t_snk s) in
      if Nat.leb n (length snk') then
        OK (consumed, mkT (skipn n rest') (skipn n snk')
              (t_items s ++ [ITok (take_trivia (t_snk s)) k (firstn n snk')])
              (t_stack s) (S (t_nev s)) (t_errs s))
      else Panicked PStuck
    else Panicked PBumpN
  | ConsumeTrivia =>
    OK (tt, mkT (t_rest s) (drop_trivia (t_snk s)) (t_items s ++ [ITriv (take_trivia (t_snk s))])
                (t_stack s) (S (t_nev s)) (t_errs s))
  | AddErr e (Some t) =>
    if strict then Panicked PStuck else
    OK (tt, mkT (t_rest s) (t_snk s) (t_items s) (t_stack s) (t_nev s) (t_errs s ++ [error_at t e]))
  | AddErr e None =>
    if strict then Panicked PStuck else
    rbind (error_here T rest' e) (fun err =>
      OK (tt, mkT rest' (t_snk s) (t_items s) (t_stack s) (t_nev s) (t_errs s ++ [err])))
  | Start =>
    OK (t_nev s, mkT (t_rest s) (t_snk s) [] ((t_nev s, t_items s) :: t_stack s) (S (t_nev s)) (t_errs s))
  | Complete m k =>
    match t_stack s with
    | (m', saved) :: st =>
      if Nat.eqb m' m then
        OK (m, mkT (t_rest s) (t_snk s) (saved ++ [INode m (Node k (trees (t_items s)))]) st
                   (S (t_nev s)) (t_errs s))
      else Panicked PStuck
    | [] => Panicked PStuck
    end
  | Precede c =>
    match split_node c (t_items s) with
    | Some (older, nd, recent) =>
      OK (t_nev s, mkT (t_rest s) (t_snk s) (ILock nd :: map lock recent) ((t_nev s, older) :: t_stack s)
                       (S (t_nev s)) (t_errs s))
    | None => Panicked PStuck
    end
  | Fail p => Panicked p
  | DAssert site f =>
    if dbg then
      if f rest' then OK (tt, mkT rest' (t_snk s) (t_items s) (t_stack s) (t_nev s) (t_errs s))
      else Panicked (PDebugAssert site)
    else OK (tt, s)
  end.

Definition t_init (T : list token) : tstate := mkT T T [] [] 0 [].
