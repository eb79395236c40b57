(** The parser's run-time: interpreter of grammar programs, the concrete parser state
    (parser.rs, source.rs, event.rs), the sink (sink.rs) and rowan's GreenNodeBuilder. *)
From Coq Require Import NArith Bool Arith List.
Import ListNotations.
From Verif Require Import Text Kind Lexer ParserApi GrammarHtml.

(** * Results *)

(** Outcome of running a piece of the program: a value, a panic, or fuel exhausted
    (the interpreter's bound on nested calls and loop rounds; no counterpart in the code). *)
Inductive res (A : Type) : Type :=
| OK (a : A)
| Panicked (p : panic)
| NoFuel.
Arguments OK {A} a.
Arguments Panicked {A} p.
Arguments NoFuel {A}.

(** sequencing of results; no counterpart in /repo *)
Definition rbind {A B : Type} (r : res A) (f : A -> res B) : res B :=
  match r with OK a => f a | Panicked p => Panicked p | NoFuel => NoFuel end.

(** * Interpreter

    [run n p s] executes [p] on a machine given by [step]; [n] bounds the depth of grammar
    calls (Rust call stack) plus loop rounds; sequencing costs nothing. *)
Section Run.
  Context {St : Type} (step : forall B : Set, op B -> St -> res (B * St)).

  (** execution of Rust code with a bound on calls and loop rounds; no counterpart in /repo *)
  Fixpoint run (n : nat) {A : Set} (p : prog A) (s : St) {struct n} : res (A * St) :=
    (fix go {A : Set} (p : prog A) (s : St) {struct p} : res (A * St) :=
       match p with
       | Ret a => OK (a, s)
       | Op o k => rbind (step _ o s) (fun bs => go (k (fst bs)) (snd bs))
       | Call c k =>
         rbind (match n with 0 => NoFuel | S n' => run n' (body c) s end)
               (fun rs => go (k (fst rs)) (snd rs))
       | Iter f x k =>
         rbind (rbind (go (f x) s) (fun ys =>
                  match fst ys with
                  | inr b => OK (b, snd ys)
                  | inl x' =>
                    match n with
                    | 0 => NoFuel
                    | S n' => run n' (Iter f x' (fun b => Ret b)) (snd ys)
                    end
                  end))
               (fun bs => go (k (fst bs)) (snd bs))
       end) A p s.
End Run.

(** * Syntax trees *)

(** rowan green tree: tokens (kind, text) and nodes (kind, children); untyped.rs SyntaxNode. *)
Inductive tree : Set :=
| Leaf (k : kind) (s : text)
| Node (k : kind) (cs : list tree).

(** * Concrete parser state *)

(** event.rs:4-22 *)
Inductive event : Set :=
| EStart (k : kind) (forward_parent : option nat)   (* StartNode *)
| EToken (k : kind)                                 (* AddToken *)
| ENextN (n : nat) (k : kind)                       (* AddNextNTokensAs *)
| EFinish                                           (* FinishNode *)
| ETrivia                                           (* ExplicitlyConsumeTrivia *)
| EPlaceholder.                                     (* Placeholder *)

(** parser.rs:116-120 struct Parser; source.rs:8-11 struct Source (the slice [tokens] and
    [cursor], kept as the pair of the whole list and the list from the cursor on);
    event.rs:26-30 EventCollection ([c_open] is [open_markers]; it exists in debug builds
    only and is used here in both builds to know which markers are not yet completed). *)
Record cstate : Set := mkC {
  c_toks : list token; c_rest : list token;
  c_events : list event; c_open : list nat; c_errs : list perror }.

(** source.rs:123-127 eat_trivia *)
Fixpoint drop_trivia (l : list token) : list token :=
  match l with
  | t :: l' => if is_trivia (tk_kind t) then drop_trivia l' else l
  | [] => []
  end.

(** indexed assignment, event.rs:91-96 *)
Definition set_nth {A : Type} (i : nat) (x : A) (l : list A) : list A :=
  firstn i l ++ match skipn i l with [] => [] | _ :: r => x :: r end.

(** parser.rs:330-357 add_error, builder without at_token *)
Definition error_here (toks rest : list token) (e : text) : res perror :=
  match rest with
  | t :: _ => OK (mkErr (tk_start t) (tk_end t) (Some (tk_kind t)) e)
  | [] =>
    match rev toks with
    | t :: _ => OK (mkErr (tk_start t) (tk_end t) None e)
    | [] => Panicked PEmptyFile
    end
  end.
(** parse_error.rs:28-32 at_token: range and found kind of the given token *)
Definition error_at (t : token) (e : text) : perror :=
  mkErr (tk_start t) (tk_end t) (Some (tk_kind t)) e.

(** event.rs:79-88: open_markers.pop(), by value as in release builds the order is not checked *)
Fixpoint remove_nat (m : nat) (l : list nat) : list nat :=
  match l with [] => [] | x :: l' => if Nat.eqb x m then l' else x :: remove_nat m l' end.

(** event.rs:66-73 start *)
Definition c_start (s : cstate) : nat * cstate :=
  let pos := length (c_events s) in
  (pos, mkC (c_toks s) (c_rest s) (c_events s ++ [EPlaceholder]) (pos :: c_open s) (c_errs s)).

(** event.rs:76-102 complete; [dbg]: debug assertions enabled *)
Definition c_complete (dbg : bool) (m : nat) (k : kind) (s : cstate) : res (nat * cstate) :=
  if dbg && negb (match c_open s with x :: _ => Nat.eqb x m | [] => false end)
  then Panicked PMarkerOrder else
  match nth_error (c_events s) m with
  | None => Panicked PMarkerIndex
  | Some e =>
    if dbg && negb (match e with EPlaceholder => true | _ => false end)
    then Panicked PMarkerPlaceholder else
    OK (m, mkC (c_toks s) (c_rest s)
               (set_nth m (EStart k None) (c_events s) ++ [EFinish])
               (remove_nat m (c_open s)) (c_errs s))
  end.

(** event.rs:105-119 precede *)
Definition c_precede (c : nat) (s : cstate) : res (nat * cstate) :=
  let (new_m, s1) := c_start s in
  match nth_error (c_events s1) c with
  | None => Panicked PMarkerIndex
  | Some (EStart k _) =>
    OK (new_m, mkC (c_toks s1) (c_rest s1)
                   (set_nth c (EStart k (Some (new_m - c))) (c_events s1))
                   (c_open s1) (c_errs s1))
  | Some _ => Panicked PPrecede
  end.

(** The primitives (parser.rs:138-371, see ParserApi.v [op]) on the concrete state. *)
Definition cstep (dbg : bool) (B : Set) (o : op B) (s : cstate) : res (B * cstate) :=
  let rest' := drop_trivia (c_rest s) in
  match o in op B return res (B * cstate) with
  | Look => OK (rest', mkC (c_toks s) rest' (c_events s) (c_open s) (c_errs s))
  | GetPos => OK (length (c_toks s) - length (c_rest s), s)
  | BumpAs site as_ =>
    match rest' with
    | [] => Panicked (PBump site)
    | t :: ts =>
      let k := match as_ with Some k => k | None => tk_kind t end in
      OK (mkTok k (tk_text t) (tk_start t) (tk_end t),
          mkC (c_toks s) ts (c_events s ++ [EToken k]) (c_open s) (c_errs s))
    end
  | BumpN n k =>
    let consumed := firstn n rest' in
    if Nat.eqb (length consumed) n then
      OK (consumed, mkC (c_toks s) (skipn n rest') (c_events s ++ [ENextN n k]) (c_open s) (c_errs s))
    else Panicked PBumpN
  | ConsumeTrivia => OK (tt, mkC (c_toks s) (c_rest s) (c_events s ++ [ETrivia]) (c_open s) (c_errs s))
  | AddErr e (Some t) =>
    OK (tt, mkC (c_toks s) (c_rest s) (c_events s) (c_open s) (c_errs s ++ [error_at t e]))
  | AddErr e None =>
    rbind (error_here (c_toks s) rest' e) (fun err =>
      OK (tt, mkC (c_toks s) rest' (c_events s) (c_open s) (c_errs s ++ [err])))
  | Start => OK (c_start s)
  | Complete m k => c_complete dbg m k s
  | Precede c => c_precede c s
  | Fail p => Panicked p
  | DAssert site f =>
    if dbg then
      if f rest' then OK (tt, mkC (c_toks s) rest' (c_events s) (c_open s) (c_errs s))
      else Panicked (PDebugAssert site)
    else OK (tt, s)
  end.

(** parser.rs:123-131 Parser::new *)
Definition c_init (toks : list token) : cstate := mkC toks toks [] [] [].

(** parser.rs:133-136 Parser::parse.  Simplification: a marker that is dropped without
    being completed panics at the end of the parse instead of at its drop point. *)
Definition parser_parse (dbg : bool) (fuel : nat) (toks : list token)
  : res (list event * list perror) :=
  rbind (run (cstep dbg) fuel root (c_init toks)) (fun rs =>
    match c_open (snd rs) with
    | [] => OK (c_events (snd rs), c_errs (snd rs))
    | _ => Panicked PMarkerDropped
    end).

(** * Sink *)

(** rowan GreenNodeBuilder: stack of open nodes with their children so far (latest first),
    innermost first; [b_base] holds finished elements outside of any open node. *)
Record builder : Set := mkB { b_open : list (kind * list tree); b_base : list tree }.
(** rowan GreenNodeBuilder::token (sink.rs), library *)
Definition b_add (t : tree) (b : builder) : builder :=
  match b_open b with
  | (k, cs) :: fs => mkB ((k, t :: cs) :: fs) (b_base b)
  | [] => mkB [] (t :: b_base b)
  end.
(** GreenNodeBuilder::start_node *)
Definition b_start (k : kind) (b : builder) : builder := mkB ((k, []) :: b_open b) (b_base b).
(** GreenNodeBuilder::finish_node; panics if no node is open *)
Definition b_finish_node (b : builder) : res builder :=
  match b_open b with
  | (k, cs) :: fs => OK (b_add (Node k (rev cs)) (mkB fs (b_base b)))
  | [] => Panicked PBuilder
  end.
(** GreenNodeBuilder::finish; panics unless there is exactly one finished node *)
Definition b_finish (b : builder) : res tree :=
  match b_open b, b_base b with
  | [], [Node k cs] => OK (Node k cs)
  | _, _ => Panicked PBuilder
  end.

(** sink.rs:104-123 consume_trivia and token *)
Fixpoint s_trivia (toks : list token) (b : builder) : list token * builder :=
  match toks with
  | t :: ts => if is_trivia (tk_kind t) then s_trivia ts (b_add (Leaf (tk_kind t) (tk_text t)) b)
               else (toks, b)
  | [] => ([], b)
  end.

(** sink.rs:59-77: the forward-parent walk on the events after the current index; gives
    the collected kinds (inner to outer) and the events with visited ones replaced.
    [fuel]: the walk visits each event at most once. *)
Fixpoint s_follow (fuel : nat) (idx : nat) (fp : option nat) (es : list event)
  : res (list kind * list event) :=
  match fp with
  | None => OK ([], es)
  | Some d =>
    match fuel with
    | 0 => Panicked PSink
    | S fuel' =>
      match nth_error es (idx + d) with
      | Some (EStart k fp') =>
        rbind (s_follow fuel' (idx + d) fp' (set_nth (idx + d) EPlaceholder es))
              (fun r => OK (k :: fst r, snd r))
      | _ => Panicked PSink
      end
    end
  end.

(** sink.rs:34-90: the loop; [es] are the events from the current index on, [n] of them
    remain ([n = 1] is the last event); [toks] the tokens from the sink's cursor on.
    The current event is at index 0 of the slice; it is replaced by a placeholder
    before the walk, as in the code. *)
Fixpoint s_loop (n : nat) (es : list event) (toks : list token) (b : builder)
  : res (list token * builder) :=
  match n, es with
  | S n', e :: es' =>
    let last := match n' with 0 => true | _ => false end in
    let is_tok := match e with EToken _ | ENextN _ _ => true | _ => false end in
    let (toks, b) := if is_tok || last then s_trivia toks b else (toks, b) in
    match e with
    | EStart k fp =>
      rbind (s_follow (length es) 0 fp (EPlaceholder :: es')) (fun r =>
        s_loop n' (tl (snd r)) toks
               (fold_left (fun b k => b_start k b) (rev (k :: fst r)) b))
    | EToken k =>
      match toks with
      | t :: ts => s_loop n' es' ts (b_add (Leaf k (tk_text t)) b)
      | [] => Panicked PSink
      end
    | ENextN m k =>
      if Nat.leb m (length toks) then
        s_loop n' es' (skipn m toks) (b_add (Leaf k (concat (map tk_text (firstn m toks)))) b)
      else Panicked PSink
    | ETrivia => let (ts, b') := s_trivia toks b in s_loop n' es' ts b'
    | EFinish => rbind (b_finish_node b) (fun b' => s_loop n' es' toks b')
    | EPlaceholder => s_loop n' es' toks b
    end
  | _, _ => OK (toks, b)
  end.

(** sink.rs:34-102 finish *)
Definition sink (toks : list token) (es : list event) : res tree :=
  rbind (s_loop (length es) es toks (mkB [] [])) (fun r =>
    match fst r with
    | [] => b_finish (snd r)
    | _ => Panicked PSink
    end).

(** parser.rs:78-84 parse, on the tokens *)
Definition parse_tokens (dbg : bool) (fuel : nat) (toks : list token)
  : res (tree * list perror) :=
  rbind (parser_parse dbg fuel toks) (fun r =>
    rbind (sink toks (fst r)) (fun t => OK (t, snd r))).

(** Enough fuel for every token list (see the termination theorem). *)
Definition parse_fuel (toks : list token) : nat := 2 * length toks + 1.

(** parser.rs:78-84 parse; [dbg] selects a debug or a release build *)
Definition parse_src (dbg : bool) (src : text) : res (tree * list perror) :=
  let toks := lex src in parse_tokens dbg (parse_fuel toks) toks.
