(** The parser's programming interface.

    The recursive-descent grammar of /repo/crates/ludtwig-parser/src/grammar is a program
    over a small set of primitives of [Parser] (parser.rs), [Source] (source.rs) and
    [EventCollection] (event.rs).  Grammar functions are written as [prog] terms over
    these primitives ([op]); the machines that give them a meaning are in Machine.v
    (token cursor and event list, as in the source) and TreeMachine.v (trees). *)
From Coq Require Import List NArith String Bool.
Import ListNotations.
From Verif Require Import Text Kind Lexer.

(** parse_error.rs:43-48  struct ParseError. *)
Record perror : Set := mkErr {
  err_start : nat; err_end : nat; err_found : option kind; err_expected : text }.

(** Call sites of [bump] that are not guarded by a preceding look-ahead
    (the panic message of [bump] carries the caller's location, parser.rs:210 track_caller):
    literal.rs:447, html.rs:110 and html.rs:139; [SOther] is any other site. *)
Inductive site : Set := SArrow | SRawInner | SRawText | SOther.

(** The panics the parser can raise. *)
Inductive panic : Set :=
| PBump (s : site)            (* parser.rs:215, 236  no more tokens *)
| PBumpN                      (* parser.rs:250  not enough tokens *)
| PEmptyFile                  (* parser.rs:343  error on empty file *)
| PDisplay (k : kind)         (* untyped.rs:925  Display not implemented *)
| PDebugAssert (s : site)     (* a debug_assert! of grammar/; SArrow: literal.rs:442, else SOther *)
| PMarkerOrder                (* event.rs:82-86 debug_assert_eq! *)
| PMarkerPlaceholder          (* event.rs:92 debug_assert_eq! *)
| PMarkerIndex                (* event.rs:91, 111 index out of bounds *)
| PPrecede                    (* event.rs:115 unreachable! *)
| PMarkerDropped              (* event.rs:140-143 *)
| PUnary                      (* expression.rs:330 expect *)
| PUnreachable                (* html.rs:405 *)
| PSink                       (* sink.rs:74 unreachable!, sink.rs:92 assert, index errors *)
| PBuilder                    (* rowan GreenNodeBuilder: finish_node/finish on a bad stack *)
| PStuck.                     (* tree machine only: marker bookkeeping not well nested *)

(** parser.rs:138-371  the primitive operations.  Every look-ahead method of [Parser]
    first eats trivia and then inspects the remaining tokens, so one primitive [Look]
    (eat trivia, then read [&tokens[cursor..]]) serves them all. *)
Inductive op : Set -> Type :=
| Look : op (list token)                                  (* source.rs:123-127 eat_trivia, tokens[cursor..] *)
| GetPos : op nat                                         (* parser.rs:153-155 *)
| BumpAs (at_ : site) (as_ : option kind) : op token      (* parser.rs:211-220 bump, 232-245 bump_as *)
| BumpN (n : nat) (k : kind) : op (list token)            (* parser.rs:248-259 bump_next_n_as *)
| ConsumeTrivia : op unit                                 (* parser.rs:227-229 *)
| AddErr (expected : text) (at_ : option token) : op unit (* parser.rs:330-357 add_error *)
| Start : op nat                                          (* parser.rs:359-361 *)
| Complete (m : nat) (k : kind) : op nat                  (* parser.rs:364-366 *)
| Precede (c : nat) : op nat                              (* parser.rs:369-371 *)
| Fail (p : panic) : op Empty_set                         (* explicit panics of the grammar *)
| DAssert (at_ : site) (f : list token -> bool) : op unit. (* debug_assert!(lookahead) *)

(** grammar.rs:14  ParseFunction: the functions passed as [child_parser]. *)
Inductive pfun : Set :=
| PFAny          (* grammar.rs:59 parse_any_element *)
| PFRawInner     (* html.rs:96 parse_html_raw_text_inner *)
| PFDouble       (* html.rs:329 inner_double_quote_parser *)
| PFSingle       (* html.rs:344 inner_single_quote_parser *)
| PFAttr.        (* html.rs:285 parse_html_attribute_or_twig *)

(** Recursive entry points of the grammar: the functions through which every recursive
    cycle passes. *)
Inductive call : Set :=
| CExpr (bp : nat)          (* expression.rs:137 parse_twig_expression_binding_power *)
| CChild (f : pfun).

(** Grammar programs: primitives, recursive calls (result: Option<CompletedMarker>), loops. *)
Inductive prog (A : Set) : Type :=
| Ret (a : A)
| Op (B : Set) (o : op B) (k : B -> prog A)
| Call (c : call) (k : option nat -> prog A)
| Iter (X B : Set) (f : X -> prog (X + B)) (x : X) (k : B -> prog A).
Arguments Ret {A} a.
Arguments Op {A B} o k.
Arguments Call {A} c k.
Arguments Iter {A X B} f x k.

(** sequencing of Rust statements; no counterpart in /repo *)
Fixpoint bind {A C : Set} (p : prog A) (g : A -> prog C) : prog C :=
  match p with
  | Ret a => g a
  | Op o k => Op o (fun b => bind (k b) g)
  | Call c k => Call c (fun r => bind (k r) g)
  | Iter f x k => Iter f x (fun b => bind (k b) g)
  end.

Declare Scope prog_scope.
Delimit Scope prog_scope with prog.
Notation "x <- p ;; q" := (bind p (fun x => q))
  (at level 61, p at next level, right associativity) : prog_scope.
Notation "' x <- p ;; q" := (bind p (fun y => let x := y in q))
  (at level 61, x pattern, p at next level, right associativity) : prog_scope.
Notation "p ;; q" := (bind p (fun _ => q)) (at level 61, right associativity) : prog_scope.
Notation "'If' c 'Then' p 'Else' q" :=
  (bind c (fun b : bool => if b then p else q))
  (at level 200, c at level 100, p at level 100, q at level 200) : prog_scope.
Open Scope prog_scope.

(** a single parser operation; no counterpart in /repo *)
Definition prim {B : Set} (o : op B) : prog B := Op o (fun b => Ret b).
(** [if b { p }] of Rust; no counterpart in /repo *)
Definition when (b : bool) (p : prog unit) : prog unit := if b then p else Ret tt.
(** Option::is_none (std) *)
Definition is_none {A : Set} (o : option A) : bool := match o with None => true | Some _ => false end.
(** Option::is_some (std) *)
Definition is_some {A : Set} (o : option A) : bool := negb (is_none o).

(** * Look-ahead, as functions of the remaining tokens (after eating trivia) *)

(** source.rs:36-39 peek_kind / parser.rs:138-140 *)
Definition l_kind (r : list token) : option kind :=
  match r with [] => None | t :: _ => Some (tk_kind t) end.
(** [SyntaxKind] membership: [set.contains(&k)] *)
Definition mem_kind (k : kind) (set : list kind) : bool := existsb (kind_eqb k) set.
(** parser.rs:161-163 at *)
Definition l_at (k : kind) (r : list token) : bool :=
  match r with [] => false | t :: _ => kind_eqb (tk_kind t) k end.
(** parser.rs:157-159 at_set *)
Definition l_at_set (set : list kind) (r : list token) : bool :=
  match r with [] => false | t :: _ => mem_kind (tk_kind t) set end.
(** parser.rs:206-208 at_end *)
Definition l_at_end (r : list token) : bool :=
  match r with [] => true | _ => false end.
(** parser/source.rs:60-63, 96-98: the filter of the lookahead *)
Definition nontriv (l : list token) : list token :=
  filter (fun t => negb (is_trivia (tk_kind t))) l.
(** source.rs:66-72 and 101-112: the comparison loop over non-trivia tokens *)
Fixpoint l_follow (set : list (kind * option text)) (l : list token) : bool :=
  match l, set with
  | _, [] => true
  | t :: l', (k, c) :: set' =>
    if kind_eqb (tk_kind t) k &&
       match c with None => true | Some txt => text_eqb txt (tk_text t) end
    then l_follow set' l' else false
  | [], _ :: _ => false
  end.
(** source.rs:90-113 at_following_content *)
Definition l_following_content (set : list (kind * option text)) (r : list token) : bool :=
  match r with [] => false | _ => l_follow set (nontriv r) end.
(** source.rs:54-73 at_following *)
Definition l_following (set : list kind) (r : list token) : bool :=
  l_following_content (map (fun k => (k, None)) set) r.
(** source.rs:77-88 peek_next_non_trivia_kind *)
Definition l_next_kind (r : list token) : option kind :=
  match r with [] => None | _ :: r' => l_kind (nontriv r') end.

(** parser.rs:38-54 token sets *)
Definition TWIG_BLOCK_OPEN_SET : list kind := [TK_CURLY_PERCENT; TK_CURLY_PERCENT_MINUS; TK_CURLY_PERCENT_TILDE].
(** parser.rs:42 *)
Definition TWIG_BLOCK_CLOSE_SET : list kind := [TK_PERCENT_CURLY; TK_MINUS_PERCENT_CURLY; TK_TILDE_PERCENT_CURLY].
(** parser.rs:45 *)
Definition TWIG_VAR_OPEN_SET : list kind := [TK_OPEN_CURLY_CURLY; TK_OPEN_CURLY_CURLY_MINUS; TK_OPEN_CURLY_CURLY_TILDE].
(** parser.rs:48 *)
Definition TWIG_VAR_CLOSE_SET : list kind := [TK_CLOSE_CURLY_CURLY; TK_MINUS_CLOSE_CURLY_CURLY; TK_TILDE_CLOSE_CURLY_CURLY].
(** parser.rs:51 *)
Definition TWIG_COMMENT_OPEN_SET : list kind := [TK_OPEN_CURLY_HASHTAG; TK_OPEN_CURLY_HASHTAG_MINUS; TK_OPEN_CURLY_HASHTAG_TILDE].
(** parser.rs:54 *)
Definition TWIG_COMMENT_CLOSE_SET : list kind := [TK_HASHTAG_CLOSE_CURLY; TK_MINUS_HASHTAG_CLOSE_CURLY; TK_TILDE_HASHTAG_CLOSE_CURLY].
(** parser.rs:23-36 *)
Definition GENERAL_RECOVERY_SET : list kind :=
  [TK_CURLY_PERCENT; TK_CURLY_PERCENT_MINUS; TK_CURLY_PERCENT_TILDE; TK_OPEN_CURLY_CURLY; TK_OPEN_CURLY_CURLY_MINUS; TK_OPEN_CURLY_CURLY_TILDE;
   TK_OPEN_CURLY_HASHTAG; TK_OPEN_CURLY_HASHTAG_MINUS; TK_OPEN_CURLY_HASHTAG_TILDE; TK_LESS_THAN; TK_LESS_THAN_EXCLAMATION_MARK_MINUS_MINUS; TK_LESS_THAN_EXCLAMATION_MARK].

(** parser.rs:177-179 at_twig_tag *)
Definition l_twig_tag (keyword : kind) (r : list token) : bool :=
  l_at_set TWIG_BLOCK_OPEN_SET r &&
  match l_next_kind r with Some k => kind_eqb k keyword | None => false end.

(** * Parser methods *)

Definition look {B : Set} (f : list token -> B) : prog B := Op Look (fun r => Ret (f r)).
(** parser.rs:161-163 at *)
Definition at_ (k : kind) : prog bool := look (l_at k).
(** parser.rs:157-159 *)
Definition at_set (s : list kind) : prog bool := look (l_at_set s).
(** parser.rs:206-208 *)
Definition at_end : prog bool := look l_at_end.
(** parser.rs:166-168 *)
Definition at_following (s : list kind) : prog bool := look (l_following s).
(** parser.rs:202-204 *)
Definition at_following_content s : prog bool := look (l_following_content s).
(** parser.rs:177-179 *)
Definition at_twig_tag (k : kind) : prog bool := look (l_twig_tag k).
(** parser.rs:182-184 *)
Definition at_twig_block_open : prog bool := at_set TWIG_BLOCK_OPEN_SET.
(** parser.rs:187-189 *)
Definition at_twig_block_close : prog bool := at_set TWIG_BLOCK_CLOSE_SET.
(** parser.rs:192-194 *)
Definition at_twig_var_open : prog bool := at_set TWIG_VAR_OPEN_SET.
(** parser.rs:197-199 *)
Definition at_twig_comment_open : prog bool := at_set TWIG_COMMENT_OPEN_SET.
(** parser.rs:142-144 peek_token, 149-151 peek_nth_token *)
Definition peek_token : prog (option token) := look (@hd_error token).
(** parser.rs:149-151 *)
Definition peek_nth_token (n : nat) : prog (option token) := look (fun r => nth_error r n).
(** parser.rs:153-155 *)
Definition get_pos : prog nat := prim GetPos.
(** parser.rs:211-220 *)
Definition bump : prog token := prim (BumpAs SOther None).
(** parser.rs:211-220 bump, with the place of the call *)
Definition bump_site (s : site) : prog token := prim (BumpAs s None).
(** parser.rs:232-245 *)
Definition bump_as (k : kind) : prog token := prim (BumpAs SOther (Some k)).
(** parser.rs:248-259 *)
Definition bump_next_n_as (n : nat) (k : kind) : prog (list token) := prim (BumpN n k).
(** parser.rs:227-229 *)
Definition explicitly_consume_trivia : prog unit := prim ConsumeTrivia.
(** parser.rs:359-361 *)
Definition start : prog nat := prim Start.
(** parser.rs:364-366 *)
Definition complete (m : nat) (k : kind) : prog nat := prim (Complete m k).
(** parser.rs:369-371 *)
Definition precede (c : nat) : prog nat := prim (Precede c).
(** an explicit panic of the code under /repo/crates/ludtwig-parser/src/grammar *)
Definition fail {B : Set} (p : panic) : prog B :=
  Op (Fail p) (fun e => match e return prog B with end).
(** [debug_assert!] under /repo/crates/ludtwig-parser/src/grammar *)
Definition debug_assert (f : list token -> bool) : prog unit := prim (DAssert SOther f).
(** [debug_assert!], with the place of the call *)
Definition debug_assert_site (s : site) (f : list token -> bool) : prog unit := prim (DAssert s f).
(** parser.rs:330 add_error with ParseErrorBuilder::new(..) / .at_token(..) *)
Definition add_error (e : string) : prog unit := prim (AddErr (txt e) None).
(** parser.rs:330-357 add_error *)
Definition add_error_t (e : text) : prog unit := prim (AddErr e None).
(** parser.rs:330-357 add_error with at_token (parse_error.rs:28-32) *)
Definition add_error_at (e : text) (t : token) : prog unit := prim (AddErr e (Some t)).

(** parser.rs:304-327 recover_expect *)
Definition recover_expect (expected set : list kind) : prog (option token) :=
  stop <- (e <- at_end ;; if e then Ret true else
           a <- at_set set ;; if a then Ret true else at_set GENERAL_RECOVERY_SET) ;;
  if stop then Ret None else
  error_m <- start ;;
  Iter (fun _ : unit =>
    bump ;;
    found <- (if match expected with [] => true | _ => false end then Ret false else at_set expected) ;;
    if found then
      complete error_m ERROR ;;
      t <- bump ;; Ret (inr (Some t))
    else
      stop <- (e <- at_end ;; if e then Ret true else
               a <- at_set GENERAL_RECOVERY_SET ;; if a then Ret true else at_set set) ;;
      if stop then complete error_m ERROR ;; Ret (inr None)
      else Ret (inl tt)) tt (fun r => Ret r).

(** parser.rs:300-302 recover *)
Definition recover (set : list kind) : prog unit := recover_expect [] set ;; Ret tt.

(** [format!("{kind}")]: the Display of a kind, panics on the unreachable arm. *)
Definition display (k : kind) : prog text :=
  match kind_display k with Some s => Ret (txt s) | None => fail (PDisplay k) end.

(** parser.rs:261-272 expect *)
Definition expect (k : kind) (set : list kind) : prog (option token) :=
  If at_ k Then t <- bump ;; Ret (Some t)
  Else (d <- display k ;; add_error_t d ;; recover_expect [k] set).

(** parser.rs:284-288 join of displays with " or " *)
Fixpoint display_or (ks : list kind) : prog text :=
  match ks with
  | [] => Ret []
  | [k] => display k
  | k :: ks' => d <- display k ;; r <- display_or ks' ;; Ret (d ++ txt " or " ++ r)%list
  end.

(** parser.rs:276-292 expect_any *)
Definition expect_any (ks set : list kind) : prog (option token) :=
  If at_set ks Then t <- bump ;; Ret (Some t)
  Else (d <- display_or ks ;; add_error_t d ;; recover_expect ks set).

(** grammar.rs:36-57 parse_many; the state [x] holds the variables captured by the two
    closures (e.g. [matching_end_tag_encountered], [node], counters). *)
Definition parse_many_st {X : Set} (early : X -> prog (bool * X)) (child : X -> prog X) (x : X)
  : prog X :=
  Iter (fun x =>
    parser_pos <- get_pos ;;
    If at_ TK_UNKNOWN Then bump ;; Ret (inl x)
    Else (
      e <- at_end ;;
      if e then Ret (inr x) else
      ' (b, x1) <- early x ;;
      if b then Ret (inr x1) else
      x2 <- child x1 ;;
      pos <- get_pos ;;
      if Nat.eqb pos parser_pos then Ret (inr x2) else Ret (inl x2))) x (fun x => Ret x).

(** grammar.rs:36-57 parse_many, closures without captured state *)
Definition parse_many (early : prog bool) (child : prog unit) : prog unit :=
  parse_many_st (fun u => b <- early ;; Ret (b, u)) (fun _ => child) tt.
