(** Twig tags: crates/ludtwig-parser/src/grammar/twig/tags.rs and shopware.rs. *)
From Coq Require Import List NArith String Bool Decimal DecimalString DecimalNat.
Import ListNotations.
From Verif Require Import Text Kind Regex Lexer ParserApi GrammarExpr.
Local Open Scope string_scope.
Local Open Scope list_scope.
Local Open Scope prog_scope.

(** tags.rs:23-41 TERMINATION_KEYWORDS *)
Definition TERMINATION_KEYWORDS : list kind :=
  [TK_ENDBLOCK; TK_ENDIF; TK_ELSE_IF; TK_ELSE; TK_ENDSET; TK_ENDFOR;
   TK_ENDEMBED; TK_SW_END_EMBED; TK_ENDAPPLY; TK_ENDAUTOESCAPE;
   TK_ENDSANDBOX; TK_ENDVERBATIM; TK_ENDMACRO; TK_ENDWITH; TK_ENDCACHE;
   TK_ENDSW_SILENT_FEATURE_CALL; TK_ENDTRANS].

(** tags.rs:21-49 at_twig_termination_tag *)
Definition l_termination_tag (r : list token) : bool :=
  l_at_set TWIG_BLOCK_OPEN_SET r &&
  match l_next_kind r with Some k => mem_kind k TERMINATION_KEYWORDS | None => false end.
(** tags.rs:21-49 *)
Definition at_twig_termination_tag : prog bool := look l_termination_tag.

(** Decimal rendering of a counter in an error message, tags.rs:1116-1123 [format!]. *)
Definition nat_text (n : nat) : text := txt (NilZero.string_of_uint (Nat.to_uint n)).

(** calling the [child_parser] function pointer (e.g. tags.rs:226-228) *)
Definition call_child (f : pfun) : prog unit := Call (CChild f) (fun _ => Ret tt).

(** the set of block closing tokens, as spelled out in the recovery sets of tags.rs *)
Definition close3 := TWIG_BLOCK_CLOSE_SET.
(** the recovery set "%}", "-%}", "~%}", "</" used all over tags.rs *)
Definition close_slash : list kind := close3 ++ [TK_LESS_THAN_SLASH].

(** The body of a block tag: start, parse_many(until [early], child_parser), complete BODY
    (e.g. tags.rs:221-230). *)
Definition parse_body (early : prog bool) (child : pfun) : prog unit :=
  body_m <- start ;;
  parse_many early (call_child child) ;;
  complete body_m BODY ;; Ret tt.

(** The ending block of a block tag: "{%" [kw] "%}" (e.g. tags.rs:232-239); [r1] [r2] [r3]
    are the three recovery sets. *)
Definition parse_ending (kw : kind) (r1 r2 r3 : list kind) (node : kind) : prog unit :=
  end_block_m <- start ;;
  expect_any TWIG_BLOCK_OPEN_SET r1 ;;
  expect kw r2 ;;
  expect_any TWIG_BLOCK_CLOSE_SET r3 ;;
  complete end_block_m node ;; Ret tt.

(** [if parse_twig_expression(p).is_none() { add_error(msg); recover(set) }]
    (e.g. tags.rs:125-138) *)
Definition expression_or (msg : string) (set : list kind) : prog unit :=
  e <- parse_twig_expression ;;
  when (is_none e) (add_error msg ;; recover set).

(** [if parse_twig_name(p).is_none() { add_error(msg); recover(set) }]
    (e.g. tags.rs:658-661) *)
Definition name_or (msg : string) (set : list kind) : prog unit :=
  e <- parse_twig_name ;;
  when (is_none e) (add_error msg ;; recover set).

(** at a quote: [parse_twig_string(false)], otherwise [add_error(msg); recover(set)]
    (e.g. tags.rs:496-501) *)
Definition string_or (msg : string) (set : list kind) : prog unit :=
  If at_set [TK_DOUBLE_QUOTES; TK_SINGLE_QUOTES] Then parse_twig_string false ;; Ret tt
  Else (add_error msg ;; recover set).

(** [if at(k) { bump() }] (e.g. tags.rs:254-256) *)
Definition opt_bump (k : kind) : prog unit :=
  If at_ k Then bump ;; Ret tt Else Ret tt.

(** tags.rs:117-243 *)
Definition parse_twig_cache (outer : nat) (child : pfun) : prog nat :=
  debug_assert (l_at TK_CACHE) ;;
  bump ;;
  expression_or "twig expression as cache key"
    ([TK_TTL; TK_TAGS; TK_ENDCACHE; TK_OPEN_PARENTHESIS; TK_CLOSE_PARENTHESIS] ++ close_slash) ;;
  (If at_ TK_TTL Then
     ttl_m <- start ;;
     bump ;;
     expect TK_OPEN_PARENTHESIS ([TK_CLOSE_PARENTHESIS; TK_TAGS; TK_ENDCACHE] ++ close_slash) ;;
     expression_or "twig expression as cache time to live"
       ([TK_CLOSE_PARENTHESIS; TK_TAGS; TK_ENDCACHE] ++ close_slash) ;;
     expect TK_CLOSE_PARENTHESIS ([TK_TAGS; TK_ENDCACHE] ++ close_slash) ;;
     complete ttl_m TWIG_CACHE_TTL ;; Ret tt
   Else Ret tt) ;;
  (If at_ TK_TAGS Then
     tags_m <- start ;;
     bump ;;
     expect TK_OPEN_PARENTHESIS ([TK_CLOSE_PARENTHESIS; TK_ENDCACHE] ++ close_slash) ;;
     expression_or "twig expression as cache tags" ([TK_CLOSE_PARENTHESIS; TK_ENDCACHE] ++ close_slash) ;;
     expect TK_CLOSE_PARENTHESIS ([TK_ENDCACHE] ++ close_slash) ;;
     complete tags_m TWIG_CACHE_TAGS ;; Ret tt
   Else Ret tt) ;;
  expect_any TWIG_BLOCK_CLOSE_SET ([TK_ENDCACHE] ++ close_slash) ;;
  wrapper_m <- complete outer TWIG_CACHE_STARTING_BLOCK ;;
  wrapper_m <- precede wrapper_m ;;
  parse_body (at_twig_tag TK_ENDCACHE) child ;;
  parse_ending TK_ENDCACHE ([TK_ENDCACHE] ++ close_slash) close_slash [TK_LESS_THAN_SLASH]
    TWIG_CACHE_ENDING_BLOCK ;;
  complete wrapper_m TWIG_CACHE.

(** tags.rs:245-287 *)
Definition parse_twig_with (outer : nat) (child : pfun) : prog nat :=
  debug_assert (l_at TK_WITH) ;;
  bump ;;
  parse_twig_expression ;;
  opt_bump TK_ONLY ;;
  expect_any TWIG_BLOCK_CLOSE_SET ([TK_ENDWITH] ++ close_slash) ;;
  wrapper_m <- complete outer TWIG_WITH_STARTING_BLOCK ;;
  wrapper_m <- precede wrapper_m ;;
  parse_body (at_twig_tag TK_ENDWITH) child ;;
  parse_ending TK_ENDWITH ([TK_ENDWITH] ++ close_slash) close_slash [TK_LESS_THAN_SLASH]
    TWIG_WITH_ENDING_BLOCK ;;
  complete wrapper_m TWIG_WITH.

(** tags.rs:366-380 and 1212-1226: optional name behind endmacro / endblock *)
Definition parse_end_name (what : string) (name : option text) : prog unit :=
  If at_ TK_WORD Then
    end_name_token <- bump ;;
    match name with
    | Some n =>
      if text_eqb (tk_text end_name_token) n then Ret tt else
      add_error_at (txt "nothing or same twig " ++ txt what ++ txt " name as opening ("
                    ++ n ++ txt ")") end_name_token ;;
      recover close_slash
    | None => Ret tt
    end
  Else Ret tt.

(** tags.rs:289-386 *)
Definition parse_twig_macro (outer : nat) (child : pfun) : prog nat :=
  debug_assert (l_at TK_MACRO) ;;
  bump ;;
  macro_name <- expect TK_WORD ([TK_OPEN_PARENTHESIS; TK_CLOSE_PARENTHESIS; TK_ENDMACRO] ++ close_slash) ;;
  arguments_m <- start ;;
  expect TK_OPEN_PARENTHESIS ([TK_CLOSE_PARENTHESIS; TK_ENDMACRO] ++ close_slash) ;;
  parse_arguments (close3 ++ [TK_CLOSE_PARENTHESIS]) ;;
  expect TK_CLOSE_PARENTHESIS ([TK_ENDMACRO] ++ close_slash) ;;
  complete arguments_m TWIG_ARGUMENTS ;;
  expect_any TWIG_BLOCK_CLOSE_SET ([TK_ENDMACRO] ++ close_slash) ;;
  wrapper_m <- complete outer TWIG_MACRO_STARTING_BLOCK ;;
  wrapper_m <- precede wrapper_m ;;
  parse_body (at_twig_tag TK_ENDMACRO) child ;;
  end_block_m <- start ;;
  expect_any TWIG_BLOCK_OPEN_SET ([TK_ENDMACRO] ++ close_slash) ;;
  expect TK_ENDMACRO close_slash ;;
  parse_end_name "macro" (option_map tk_text macro_name) ;;
  expect_any TWIG_BLOCK_CLOSE_SET [TK_LESS_THAN_SLASH] ;;
  complete end_block_m TWIG_MACRO_ENDING_BLOCK ;;
  complete wrapper_m TWIG_MACRO.

(** tags.rs:388-428 *)
Definition parse_twig_verbatim (outer : nat) (child : pfun) : prog nat :=
  debug_assert (l_at TK_VERBATIM) ;;
  bump ;;
  expect_any TWIG_BLOCK_CLOSE_SET ([TK_ENDVERBATIM] ++ close_slash) ;;
  wrapper_m <- complete outer TWIG_VERBATIM_STARTING_BLOCK ;;
  wrapper_m <- precede wrapper_m ;;
  parse_body (at_twig_tag TK_ENDVERBATIM) child ;;
  parse_ending TK_ENDVERBATIM ([TK_ENDVERBATIM] ++ close_slash) close_slash [TK_LESS_THAN_SLASH]
    TWIG_VERBATIM_ENDING_BLOCK ;;
  complete wrapper_m TWIG_VERBATIM.

(** tags.rs:430-470 *)
Definition parse_twig_sandbox (outer : nat) (child : pfun) : prog nat :=
  debug_assert (l_at TK_SANDBOX) ;;
  bump ;;
  expect_any TWIG_BLOCK_CLOSE_SET ([TK_ENDSANDBOX] ++ close_slash) ;;
  wrapper_m <- complete outer TWIG_SANDBOX_STARTING_BLOCK ;;
  wrapper_m <- precede wrapper_m ;;
  parse_body (at_twig_tag TK_ENDSANDBOX) child ;;
  parse_ending TK_ENDSANDBOX ([TK_ENDSANDBOX] ++ close_slash) close_slash [TK_LESS_THAN_SLASH]
    TWIG_SANDBOX_ENDING_BLOCK ;;
  complete wrapper_m TWIG_SANDBOX.

(** tags.rs:472-477 *)
Definition parse_twig_flush (outer : nat) : prog nat :=
  debug_assert (l_at TK_FLUSH) ;;
  bump ;;
  expect_any TWIG_BLOCK_CLOSE_SET [TK_LESS_THAN_SLASH] ;;
  complete outer TWIG_FLUSH.

(** tags.rs:479-490 *)
Definition parse_twig_do (outer : nat) : prog nat :=
  debug_assert (l_at TK_DO) ;;
  bump ;;
  expression_or "twig expression" close_slash ;;
  expect_any TWIG_BLOCK_CLOSE_SET [TK_LESS_THAN_SLASH] ;;
  complete outer TWIG_DO.

(** tags.rs:492-505 *)
Definition parse_twig_deprecated (outer : nat) : prog nat :=
  debug_assert (l_at TK_DEPRECATED) ;;
  bump ;;
  string_or "twig deprecation message as string" close_slash ;;
  expect_any TWIG_BLOCK_CLOSE_SET [TK_LESS_THAN_SLASH] ;;
  complete outer TWIG_DEPRECATED.

(** tags.rs:507-568 *)
Definition parse_twig_autoescape (outer : nat) (child : pfun) : prog nat :=
  debug_assert (l_at TK_AUTOESCAPE) ;;
  bump ;;
  (If at_set [TK_DOUBLE_QUOTES; TK_SINGLE_QUOTES] Then parse_twig_string false ;; Ret tt
   Else If at_ TK_FALSE Then bump ;; Ret tt
   Else If at_twig_block_close Then Ret tt
   Else (add_error "twig escape strategy as string or 'false'" ;;
         recover (close3 ++ [TK_ENDAUTOESCAPE; TK_LESS_THAN_SLASH]))) ;;
  expect_any TWIG_BLOCK_CLOSE_SET [TK_ENDAUTOESCAPE; TK_LESS_THAN_SLASH] ;;
  wrapper_m <- complete outer TWIG_AUTOESCAPE_STARTING_BLOCK ;;
  wrapper_m <- precede wrapper_m ;;
  parse_body (at_twig_tag TK_ENDAUTOESCAPE) child ;;
  parse_ending TK_ENDAUTOESCAPE ([TK_ENDAUTOESCAPE] ++ close_slash) close_slash [TK_LESS_THAN_SLASH]
    TWIG_AUTOESCAPE_ENDING_BLOCK ;;
  complete wrapper_m TWIG_AUTOESCAPE.

(** tags.rs:570-642 *)
Definition parse_twig_apply (outer : nat) (child : pfun) : prog nat :=
  debug_assert (l_at TK_APPLY) ;;
  bump ;;
  on <- parse_twig_name ;;
  match on with
  | Some node =>
    (If at_ TK_OPEN_PARENTHESIS Then
       arguments_m <- start ;;
       bump ;;
       parse_arguments (close3 ++ [TK_CLOSE_PARENTHESIS]) ;;
       expect TK_CLOSE_PARENTHESIS ([TK_ENDAPPLY] ++ close_slash) ;;
       complete arguments_m TWIG_ARGUMENTS ;; Ret tt
     Else Ret tt) ;;
    parse_many_st (fun node => b <- at_twig_block_close ;; Ret (b, node))
      (fun node => If at_ TK_SINGLE_PIPE Then parse_twig_filter node Else Ret node) node ;;
    Ret tt
  | None =>
    add_error "twig filter" ;; recover (close3 ++ [TK_ENDAPPLY; TK_LESS_THAN_SLASH])
  end ;;
  expect_any TWIG_BLOCK_CLOSE_SET [TK_ENDAPPLY; TK_LESS_THAN_SLASH] ;;
  wrapper_m <- complete outer TWIG_APPLY_STARTING_BLOCK ;;
  wrapper_m <- precede wrapper_m ;;
  parse_body (at_twig_tag TK_ENDAPPLY) child ;;
  parse_ending TK_ENDAPPLY ([TK_ENDAPPLY] ++ close_slash) close_slash [TK_LESS_THAN_SLASH]
    TWIG_APPLY_ENDING_BLOCK ;;
  complete wrapper_m TWIG_APPLY.

(** tags.rs:644-666 *)
Definition parse_twig_import (outer : nat) : prog nat :=
  debug_assert (l_at_set [TK_IMPORT; TK_SW_IMPORT]) ;;
  bump ;;
  expression_or "twig expression as template"
    ([TK_AS] ++ close3 ++ [TK_WORD; TK_LESS_THAN_SLASH]) ;;
  expect TK_AS (close3 ++ [TK_WORD; TK_LESS_THAN_SLASH]) ;;
  name_or "name for twig macro" close_slash ;;
  expect_any TWIG_BLOCK_CLOSE_SET [TK_LESS_THAN_SLASH] ;;
  complete outer TWIG_IMPORT.

(** tags.rs:714-728 *)
Definition parse_name_as_name_override (expected_description : string) : prog nat :=
  override_m <- start ;;
  name_or expected_description ([TK_AS] ++ close_slash) ;;
  (If at_ TK_AS Then bump ;; name_or expected_description close_slash Else Ret tt) ;;
  complete override_m TWIG_OVERRIDE.

(** tags.rs:691-707 and 751-767: comma separated overrides; result: override_count *)
Definition parse_overrides (desc : string) : prog nat :=
  parse_many_st (fun n => b <- at_twig_block_close ;; Ret (b, n))
    (fun n =>
       parse_name_as_name_override desc ;;
       (If at_ TK_COMMA Then bump ;; Ret tt
        Else If at_twig_block_close Then Ret tt Else add_error ",") ;;
       Ret (S n)) 0.

(** tags.rs:668-712 *)
Definition parse_twig_from (outer : nat) : prog nat :=
  debug_assert (l_at_set [TK_FROM; TK_SW_FROM]) ;;
  bump ;;
  expression_or "twig expression as template" ([TK_IMPORT; TK_SW_IMPORT] ++ close_slash) ;;
  (If at_set [TK_IMPORT; TK_SW_IMPORT] Then bump ;; Ret tt
   Else (add_error "import or sw_import" ;; recover close_slash)) ;;
  override_count <- parse_overrides "macro name" ;;
  when (Nat.ltb override_count 1) (add_error "at least one macro name as macro name") ;;
  expect_any TWIG_BLOCK_CLOSE_SET [TK_LESS_THAN_SLASH] ;;
  complete outer TWIG_FROM.

(** tags.rs:730-773 *)
Definition parse_twig_use (outer : nat) : prog nat :=
  debug_assert (l_at_set [TK_USE; TK_SW_USE]) ;;
  bump ;;
  string_or "twig string as template" ([TK_WITH; TK_WORD] ++ close_slash) ;;
  (If at_ TK_WITH Then
     bump ;;
     override_count <- parse_overrides "block name" ;;
     when (Nat.ltb override_count 1) (add_error "at least one block name as block name")
   Else Ret tt) ;;
  expect_any TWIG_BLOCK_CLOSE_SET [TK_LESS_THAN_SLASH] ;;
  complete outer TWIG_USE.

(** tags.rs:810-826 and 903-911: optional "with" value *)
Definition parse_include_with (set : list kind) : prog unit :=
  If at_ TK_WITH Then
    with_value_m <- start ;;
    bump ;;
    expression_or "twig expression as with value" set ;;
    complete with_value_m TWIG_INCLUDE_WITH ;; Ret tt
  Else Ret tt.

(** tags.rs:775-880 *)
Definition parse_twig_embed (outer : nat) (child : pfun) : prog nat :=
  debug_assert (l_at_set [TK_EMBED; TK_SW_EMBED]) ;;
  is_sw_embed <- at_ TK_SW_EMBED ;;
  bump ;;
  let expected_end_tag := if is_sw_embed : bool then TK_SW_END_EMBED else TK_ENDEMBED in
  expression_or "twig expression as template name"
    ([TK_IGNORE_MISSING; TK_WITH; TK_ONLY; TK_ENDEMBED; TK_SW_END_EMBED] ++ close_slash) ;;
  opt_bump TK_IGNORE_MISSING ;;
  parse_include_with ([TK_ONLY; TK_ENDEMBED; TK_SW_END_EMBED] ++ close_slash) ;;
  opt_bump TK_ONLY ;;
  expect_any TWIG_BLOCK_CLOSE_SET ([TK_ENDEMBED; TK_SW_END_EMBED] ++ close_slash) ;;
  wrapper_m <- complete outer TWIG_EMBED_STARTING_BLOCK ;;
  wrapper_m <- precede wrapper_m ;;
  parse_body (a <- at_twig_tag TK_ENDEMBED ;;
              if a then Ret true else at_twig_tag TK_SW_END_EMBED) child ;;
  parse_ending expected_end_tag ([TK_ENDEMBED; TK_SW_END_EMBED] ++ close_slash)
    close_slash [TK_LESS_THAN_SLASH] TWIG_EMBED_ENDING_BLOCK ;;
  complete wrapper_m TWIG_EMBED.

(** tags.rs:882-920 *)
Definition parse_twig_include (outer : nat) : prog nat :=
  debug_assert (l_at TK_INCLUDE) ;;
  bump ;;
  expression_or "twig expression as template name"
    ([TK_IGNORE_MISSING; TK_WITH; TK_ONLY] ++ close_slash) ;;
  opt_bump TK_IGNORE_MISSING ;;
  parse_include_with ([TK_ONLY] ++ close_slash) ;;
  opt_bump TK_ONLY ;;
  expect_any TWIG_BLOCK_CLOSE_SET [TK_LESS_THAN_SLASH] ;;
  complete outer TWIG_INCLUDE.

(** tags.rs:922-934 *)
Definition parse_twig_extends (outer : nat) : prog nat :=
  debug_assert (l_at TK_EXTENDS) ;;
  bump ;;
  expression_or "twig expression" close_slash ;;
  expect_any TWIG_BLOCK_CLOSE_SET [TK_LESS_THAN_SLASH] ;;
  complete outer TWIG_EXTENDS.

(** tags.rs:936-1060 *)
Definition parse_twig_for (outer : nat) (child : pfun) : prog nat :=
  debug_assert (l_at TK_FOR) ;;
  bump ;;
  name_or "variable name" ([TK_COMMA; TK_IN; TK_ELSE; TK_ENDFOR] ++ close_slash) ;;
  (If at_ TK_COMMA Then
     bump ;;
     name_or "variable name" ([TK_IN; TK_ELSE; TK_ENDFOR] ++ close_slash)
   Else Ret tt) ;;
  expect TK_IN ([TK_ELSE; TK_ENDFOR] ++ close_slash) ;;
  expression_or "twig expression" (close3 ++ [TK_ELSE; TK_ENDFOR; TK_LESS_THAN_SLASH]) ;;
  expect_any TWIG_BLOCK_CLOSE_SET ([TK_ELSE; TK_ENDFOR] ++ close_slash) ;;
  wrapper_m <- complete outer TWIG_FOR_BLOCK ;;
  wrapper_m <- precede wrapper_m ;;
  parse_body (a <- at_twig_tag TK_ENDFOR ;;
              if a then Ret true else at_twig_tag TK_ELSE) child ;;
  (If at_twig_tag TK_ELSE Then
     else_m <- start ;;
     bump ;; bump ;;
     expect_any TWIG_BLOCK_CLOSE_SET ([TK_ENDFOR] ++ close_slash) ;;
     complete else_m TWIG_FOR_ELSE_BLOCK ;;
     parse_body (at_twig_tag TK_ENDFOR) child
   Else Ret tt) ;;
  parse_ending TK_ENDFOR ([TK_ENDFOR] ++ close_slash) close_slash [TK_LESS_THAN_SLASH]
    TWIG_ENDFOR_BLOCK ;;
  complete wrapper_m TWIG_FOR.

(** tags.rs:1070-1126: the TWIG_ASSIGNMENT part of a set tag; result: is_assigned_by_equal *)
Definition parse_set_assignment : prog bool :=
  assignment_m <- start ;;
  declaration_count <-
    parse_many_st (fun n => b <- at_set ([TK_EQUAL] ++ close3) ;; Ret (b, n))
      (fun n =>
         on <- parse_twig_name ;;
         when (is_none on) (add_error "twig variable name") ;;
         (If at_ TK_COMMA Then bump ;; Ret tt
          Else If at_set ([TK_EQUAL] ++ close3) Then Ret tt Else add_error ",") ;;
         Ret (if is_none on then n else S n)) 0 ;;
  when (Nat.eqb declaration_count 0) (add_error "twig variable name") ;;
  is_assigned_by_equal <-
    (If at_ TK_EQUAL Then
       bump ;;
       assignment_count <-
         parse_many_st (fun n => b <- at_twig_block_close ;; Ret (b, n))
           (fun n =>
              oe <- parse_twig_expression ;;
              when (is_none oe) (add_error "twig expression") ;;
              (If at_ TK_COMMA Then bump ;; Ret tt
               Else If at_twig_block_close Then Ret tt Else add_error ",") ;;
              Ret (if is_none oe then n else S n)) 0 ;;
       when (negb (Nat.eqb declaration_count assignment_count))
         (add_error_t (txt "a total of " ++ nat_text declaration_count
            ++ txt " twig expressions (same amount as declarations) instead of "
            ++ nat_text assignment_count)) ;;
       Ret true
     Else
       (when (Nat.ltb 1 declaration_count)
          (add_error_t (txt "= followed by " ++ nat_text declaration_count
             ++ txt " twig expressions")) ;;
        Ret false)) ;;
  complete assignment_m TWIG_ASSIGNMENT ;;
  Ret is_assigned_by_equal.

(** tags.rs:1062-1161 *)
Definition parse_twig_set (outer : nat) (child : pfun) : prog nat :=
  debug_assert (l_at TK_SET) ;;
  bump ;;
  is_assigned_by_equal <- parse_set_assignment ;;
  expect_any TWIG_BLOCK_CLOSE_SET ([TK_ENDSET] ++ close_slash) ;;
  wrapper_m <- complete outer TWIG_SET_BLOCK ;;
  wrapper_m <- precede wrapper_m ;;
  when (negb is_assigned_by_equal)
    (parse_body (at_twig_tag TK_ENDSET) child ;;
     parse_ending TK_ENDSET ([TK_ENDSET] ++ close_slash) close_slash [TK_LESS_THAN_SLASH]
       TWIG_ENDSET_BLOCK) ;;
  complete wrapper_m TWIG_SET.

(** tags.rs:1163-1233 *)
Definition parse_twig_block (outer : nat) (child : pfun) : prog nat :=
  debug_assert (l_at TK_BLOCK) ;;
  bump ;;
  block_name <- expect TK_WORD ([TK_LESS_THAN_SLASH] ++ close3 ++ [TK_ENDBLOCK]) ;;
  found_shortcut <-
    (If at_twig_block_close Then Ret false
     Else (
       e <- parse_twig_expression ;;
       if is_none e then
         add_error "twig expression or '%}'" ;;
         recover (close3 ++ [TK_ENDBLOCK; TK_LESS_THAN_SLASH]) ;; Ret false
       else Ret true)) ;;
  expect_any TWIG_BLOCK_CLOSE_SET ([TK_LESS_THAN_SLASH; TK_ENDBLOCK] ++ close3) ;;
  wrapper_m <- complete outer TWIG_STARTING_BLOCK ;;
  wrapper_m <- precede wrapper_m ;;
  when (negb found_shortcut)
    (parse_body (at_twig_tag TK_ENDBLOCK) child ;;
     end_block_m <- start ;;
     expect_any TWIG_BLOCK_OPEN_SET ([TK_LESS_THAN_SLASH; TK_ENDBLOCK] ++ close3) ;;
     expect TK_ENDBLOCK ([TK_LESS_THAN_SLASH] ++ close3) ;;
     parse_end_name "block" (option_map tk_text block_name) ;;
     expect_any TWIG_BLOCK_CLOSE_SET [TK_LESS_THAN_SLASH] ;;
     complete end_block_m TWIG_ENDING_BLOCK ;; Ret tt) ;;
  complete wrapper_m TWIG_BLOCK.

(** tags.rs:1271-1319: the branches of an if tag *)
Definition parse_if_branches (child : pfun) : prog unit :=
  Iter (fun _ : unit =>
    parse_body (a <- at_twig_tag TK_ENDIF ;; if a then Ret true else
                b <- at_twig_tag TK_ELSE_IF ;; if b then Ret true else
                at_twig_tag TK_ELSE) child ;;
    If at_twig_tag TK_ENDIF Then Ret (inr tt)
    Else If at_twig_tag TK_ELSE_IF Then
      branch_m <- start ;;
      bump ;; bump ;;
      expression_or "twig expression" (close3 ++ [TK_ENDIF; TK_LESS_THAN_SLASH]) ;;
      expect_any TWIG_BLOCK_CLOSE_SET ([TK_ENDIF] ++ close_slash) ;;
      complete branch_m TWIG_ELSE_IF_BLOCK ;;
      Ret (inl tt)
    Else If at_twig_tag TK_ELSE Then
      branch_m <- start ;;
      bump ;; bump ;;
      expect_any TWIG_BLOCK_CLOSE_SET ([TK_ENDIF] ++ close_slash) ;;
      complete branch_m TWIG_ELSE_BLOCK ;;
      Ret (inl tt)
    Else Ret (inr tt)) tt (fun r => Ret r).

(** tags.rs:1235-1331 *)
Definition parse_twig_if (outer : nat) (child : pfun) : prog nat :=
  debug_assert (l_at TK_IF) ;;
  bump ;;
  expression_or "twig expression" (close3 ++ [TK_ELSE; TK_ELSE_IF; TK_ENDIF; TK_LESS_THAN_SLASH]) ;;
  expect_any TWIG_BLOCK_CLOSE_SET ([TK_ELSE; TK_ELSE_IF; TK_ENDIF] ++ close_slash) ;;
  wrapper_m <- complete outer TWIG_IF_BLOCK ;;
  wrapper_m <- precede wrapper_m ;;
  parse_if_branches child ;;
  parse_ending TK_ENDIF ([TK_ENDIF] ++ close_slash) close_slash [TK_LESS_THAN_SLASH]
    TWIG_ENDIF_BLOCK ;;
  complete wrapper_m TWIG_IF.

(** tags.rs:1333-1370 *)
Definition parse_twig_trans (outer : nat) (child : pfun) : prog nat :=
  debug_assert (l_at TK_TRANS) ;;
  bump ;;
  expect_any TWIG_BLOCK_CLOSE_SET ([TK_ENDTRANS] ++ close_slash) ;;
  wrapper_m <- complete outer TWIG_TRANS_STARTING_BLOCK ;;
  wrapper_m <- precede wrapper_m ;;
  parse_body (at_twig_tag TK_ENDTRANS) child ;;
  parse_ending TK_ENDTRANS ([TK_ENDTRANS] ++ close_slash) close_slash [TK_LESS_THAN_SLASH]
    TWIG_TRANS_ENDING_BLOCK ;;
  complete wrapper_m TWIG_TRANS.

(** tags.rs:1372-1408 *)
Definition parse_twig_props (outer : nat) : prog nat :=
  debug_assert (l_at TK_PROPS) ;;
  bump ;;
  parse_many (at_set (close3 ++ [TK_COMMA; TK_EQUAL; TK_LESS_THAN_SLASH]))
    (m <- start ;;
     on <- parse_twig_name ;;
     when (is_none on) (add_error "twig variable name") ;;
     (If at_ TK_EQUAL Then
        bump ;;
        e <- parse_twig_expression ;;
        when (is_none e) (add_error "twig expression")
      Else Ret tt) ;;
     complete m TWIG_PROP_DECLARATION ;;
     (If at_ TK_COMMA Then bump ;; Ret tt
      Else If at_twig_block_close Then Ret tt Else add_error ",")) ;;
  expect_any TWIG_BLOCK_CLOSE_SET [TK_LESS_THAN_SLASH] ;;
  complete outer TWIG_PROPS.

(** tags.rs:1410-1469 *)
Definition parse_twig_component (outer : nat) (child : pfun) : prog nat :=
  debug_assert (l_at TK_COMPONENT) ;;
  bump ;;
  on <- parse_twig_name ;;
  when (is_none on) (add_error "component name") ;;
  (If at_ TK_WITH Then
     bump ;;
     If at_ TK_OPEN_CURLY Then parse_twig_hash ;; Ret tt
     Else add_error "twig hash/object"
   Else Ret tt) ;;
  expect_any TWIG_BLOCK_CLOSE_SET ([TK_ENDCOMPONENT] ++ close_slash) ;;
  wrapper_m <- complete outer TWIG_COMPONENT_STARTING_BLOCK ;;
  wrapper_m <- precede wrapper_m ;;
  parse_body (at_twig_tag TK_ENDCOMPONENT) child ;;
  parse_ending TK_ENDCOMPONENT ([TK_ENDCOMPONENT] ++ close_slash) close_slash [TK_LESS_THAN_SLASH]
    TWIG_COMPONENT_ENDING_BLOCK ;;
  complete wrapper_m TWIG_COMPONENT.

(** * shopware.rs *)

(** shopware.rs:42-65 *)
Definition parse_twig_sw_thumbnails (outer : nat) : prog nat :=
  debug_assert (l_at TK_SW_THUMBNAILS) ;;
  bump ;;
  expression_or "twig expression as thumbnail name" ([TK_WITH] ++ close3) ;;
  (If at_ TK_WITH Then
     style_m <- start ;;
     bump ;;
     expression_or "twig expression as thumbnail variables" ([TK_WITH] ++ close3) ;;
     complete style_m SHOPWARE_THUMBNAILS_WITH ;; Ret tt
   Else Ret tt) ;;
  expect_any TWIG_BLOCK_CLOSE_SET [] ;;
  complete outer SHOPWARE_THUMBNAILS.

(** shopware.rs:67-90 *)
Definition parse_twig_sw_icon (outer : nat) : prog nat :=
  debug_assert (l_at TK_SW_ICON) ;;
  bump ;;
  expression_or "twig expression as icon name" ([TK_STYLE] ++ close3) ;;
  (If at_ TK_STYLE Then
     style_m <- start ;;
     bump ;;
     expression_or "twig expression as icon style variables" close3 ;;
     complete style_m SHOPWARE_ICON_STYLE ;; Ret tt
   Else Ret tt) ;;
  expect_any TWIG_BLOCK_CLOSE_SET [] ;;
  complete outer SHOPWARE_ICON.

(** shopware.rs:92-100 *)
Definition parse_twig_sw_return (outer : nat) : prog nat :=
  debug_assert (l_at TK_RETURN) ;;
  bump ;;
  parse_twig_expression ;;
  expect_any TWIG_BLOCK_CLOSE_SET [] ;;
  complete outer SHOPWARE_RETURN.

(** shopware.rs:102-170 *)
Definition parse_twig_sw_silent_feature_call (outer : nat) (child : pfun) : prog nat :=
  debug_assert (l_at TK_SW_SILENT_FEATURE_CALL) ;;
  bump ;;
  string_or "twig string as feature flag (shopware doesn't allow expressions here)"
    ([TK_ENDSW_SILENT_FEATURE_CALL] ++ close3) ;;
  expect_any TWIG_BLOCK_CLOSE_SET ([TK_ENDSW_SILENT_FEATURE_CALL] ++ close3) ;;
  wrapper_m <- complete outer SHOPWARE_SILENT_FEATURE_CALL_STARTING_BLOCK ;;
  wrapper_m <- precede wrapper_m ;;
  parse_body (at_twig_tag TK_ENDSW_SILENT_FEATURE_CALL) child ;;
  parse_ending TK_ENDSW_SILENT_FEATURE_CALL ([TK_ENDSW_SILENT_FEATURE_CALL] ++ close3)
    close3 [] SHOPWARE_SILENT_FEATURE_CALL_ENDING_BLOCK ;;
  complete wrapper_m SHOPWARE_SILENT_FEATURE_CALL.

(** shopware.rs:172-187 *)
Definition parse_twig_sw_extends (outer : nat) : prog nat :=
  debug_assert (l_at TK_SW_EXTENDS) ;;
  bump ;;
  string_or "twig string as template (shopware doesn't allow expressions here)" close3 ;;
  expect_any TWIG_BLOCK_CLOSE_SET [] ;;
  complete outer SHOPWARE_TWIG_SW_EXTENDS.

(** shopware.rs:189-226 *)
Definition parse_twig_sw_include (outer : nat) : prog nat :=
  debug_assert (l_at TK_SW_INCLUDE) ;;
  bump ;;
  expression_or "twig expression as template name"
    ([TK_IGNORE_MISSING; TK_WITH; TK_ONLY] ++ close3) ;;
  opt_bump TK_IGNORE_MISSING ;;
  parse_include_with ([TK_ONLY] ++ close3) ;;
  opt_bump TK_ONLY ;;
  expect_any TWIG_BLOCK_CLOSE_SET [] ;;
  complete outer SHOPWARE_TWIG_SW_INCLUDE.

(** shopware.rs:14-40; [None] is BlockParseResult::NothingFound(outer) *)
Definition parse_shopware_twig_block_statement (outer : nat) (child : pfun) : prog (option nat) :=
  If at_ TK_SW_EXTENDS Then c <- parse_twig_sw_extends outer ;; Ret (Some c)
  Else If at_ TK_SW_INCLUDE Then c <- parse_twig_sw_include outer ;; Ret (Some c)
  Else If at_ TK_SW_SILENT_FEATURE_CALL Then
    c <- parse_twig_sw_silent_feature_call outer child ;; Ret (Some c)
  Else If at_ TK_RETURN Then c <- parse_twig_sw_return outer ;; Ret (Some c)
  Else If at_ TK_SW_ICON Then c <- parse_twig_sw_icon outer ;; Ret (Some c)
  Else If at_ TK_SW_THUMBNAILS Then c <- parse_twig_sw_thumbnails outer ;; Ret (Some c)
  Else Ret None.

(** tags.rs:51-115 *)
Definition parse_twig_block_statement (child : pfun) : prog (option nat) :=
  debug_assert (l_at_set TWIG_BLOCK_OPEN_SET) ;;
  m <- start ;;
  bump ;;
  If at_ TK_BLOCK Then c <- parse_twig_block m child ;; Ret (Some c)
  Else If at_ TK_IF Then c <- parse_twig_if m child ;; Ret (Some c)
  Else If at_ TK_SET Then c <- parse_twig_set m child ;; Ret (Some c)
  Else If at_ TK_FOR Then c <- parse_twig_for m child ;; Ret (Some c)
  Else If at_ TK_EXTENDS Then c <- parse_twig_extends m ;; Ret (Some c)
  Else If at_ TK_INCLUDE Then c <- parse_twig_include m ;; Ret (Some c)
  Else If at_set [TK_EMBED; TK_SW_EMBED] Then c <- parse_twig_embed m child ;; Ret (Some c)
  Else If at_set [TK_USE; TK_SW_USE] Then c <- parse_twig_use m ;; Ret (Some c)
  Else If at_set [TK_FROM; TK_SW_FROM] Then c <- parse_twig_from m ;; Ret (Some c)
  Else If at_set [TK_IMPORT; TK_SW_IMPORT] Then c <- parse_twig_import m ;; Ret (Some c)
  Else If at_ TK_APPLY Then c <- parse_twig_apply m child ;; Ret (Some c)
  Else If at_ TK_AUTOESCAPE Then c <- parse_twig_autoescape m child ;; Ret (Some c)
  Else If at_ TK_DEPRECATED Then c <- parse_twig_deprecated m ;; Ret (Some c)
  Else If at_ TK_DO Then c <- parse_twig_do m ;; Ret (Some c)
  Else If at_ TK_FLUSH Then c <- parse_twig_flush m ;; Ret (Some c)
  Else If at_ TK_SANDBOX Then c <- parse_twig_sandbox m child ;; Ret (Some c)
  Else If at_ TK_VERBATIM Then c <- parse_twig_verbatim m child ;; Ret (Some c)
  Else If at_ TK_MACRO Then c <- parse_twig_macro m child ;; Ret (Some c)
  Else If at_ TK_WITH Then c <- parse_twig_with m child ;; Ret (Some c)
  Else If at_ TK_CACHE Then c <- parse_twig_cache m child ;; Ret (Some c)
  Else If at_ TK_TRANS Then c <- parse_twig_trans m child ;; Ret (Some c)
  Else If at_ TK_COMPONENT Then c <- parse_twig_component m child ;; Ret (Some c)
  Else If at_ TK_PROPS Then c <- parse_twig_props m ;; Ret (Some c)
  Else (
    r <- parse_shopware_twig_block_statement m child ;;
    match r with
    | None =>
      add_error "twig tag" ;;
      complete m ERROR ;;
      Ret None
    | Some completed_m => Ret (Some completed_m)
    end).
