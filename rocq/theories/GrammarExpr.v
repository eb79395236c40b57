(** Twig expressions: crates/ludtwig-parser/src/grammar/twig/expression.rs and literal.rs. *)
From Coq Require Import List NArith String Bool.
Import ListNotations.
From Verif Require Import Text Kind Regex Lexer ParserApi.
Local Open Scope string_scope.
Local Open Scope list_scope.
Local Open Scope prog_scope.

(** regex crate: anchored match of a whole token text ([^...$], no multi-line mode). *)
Fixpoint rfull (r : regex) (s : text) : bool :=
  match s with
  | [] => nullable r
  | c :: s' => rfull (deriv c r) s'
  end.

(** literal.rs:11-12 TWIG_NAME_REGEX  ^[a-zA-Z_\x7f-\xff][a-zA-Z0-9_\x7f-\xff]*$ *)
Definition TWIG_NAME_REGEX : regex :=
  RSeq (RClass [(97,122);(65,90);(95,95);(127,255)]%N)
       (RStar (RClass [(97,122);(65,90);(48,57);(95,95);(127,255)]%N)).

(** expression.rs:13-71 *)
Definition TWIG_EXPRESSION_RECOVERY_SET : list kind :=
  [TK_SINGLE_PIPE; TK_CLOSE_PARENTHESIS; TK_CLOSE_CURLY; TK_CLOSE_SQUARE; TK_COLON; TK_CLOSE_CURLY_CURLY; TK_MINUS_CLOSE_CURLY_CURLY; TK_TILDE_CLOSE_CURLY_CURLY;
   TK_PERCENT_CURLY; TK_MINUS_PERCENT_CURLY; TK_TILDE_PERCENT_CURLY; TK_OPEN_PARENTHESIS;
   TK_NUMBER; TK_DOUBLE_QUOTES; TK_SINGLE_QUOTES; TK_OPEN_SQUARE; TK_NULL; TK_TRUE; TK_FALSE; TK_OPEN_CURLY;
   TK_OR; TK_DOUBLE_PIPE; TK_AND; TK_DOUBLE_AMPERSAND; TK_BINARY_OR; TK_BINARY_XOR; TK_BINARY_AND;
   TK_DOUBLE_EQUAL; TK_EXCLAMATION_MARK_EQUALS; TK_LESS_THAN_EQUAL_GREATER_THAN; TK_LESS_THAN; TK_GREATER_THAN; TK_GREATER_THAN_EQUAL; TK_LESS_THAN_EQUAL; TK_NOT;
   TK_NOT_IN; TK_IN; TK_MATCHES; TK_STARTS_WITH; TK_ENDS_WITH;
   TK_TRIPLE_EQUAL; TK_EXCLAMATION_MARK_DOUBLE_EQUALS; TK_DOUBLE_DOT; TK_TRIPLE_DOT; TK_PLUS; TK_MINUS; TK_TILDE; TK_STAR;
   TK_FORWARD_SLASH; TK_DOUBLE_FORWARD_SLASH; TK_PERCENT; TK_IS; TK_IS_NOT; TK_DOUBLE_STAR; TK_DOUBLE_QUESTION_MARK].

(** expression.rs:90-125 binary_binding_power *)
Definition binary_binding_power (k : kind) : option (nat * nat) :=
  match k with
  | TK_OR | TK_DOUBLE_PIPE => Some (5, 6)
  | TK_AND | TK_DOUBLE_AMPERSAND => Some (10, 11)
  | TK_BINARY_OR => Some (14, 15)
  | TK_BINARY_XOR => Some (16, 17)
  | TK_BINARY_AND => Some (18, 19)
  | TK_DOUBLE_EQUAL | TK_EXCLAMATION_MARK_EQUALS | TK_LESS_THAN_EQUAL_GREATER_THAN | TK_LESS_THAN | TK_GREATER_THAN | TK_GREATER_THAN_EQUAL | TK_LESS_THAN_EQUAL
  | TK_IN | TK_NOT_IN | TK_MATCHES | TK_STARTS_WITH | TK_ENDS_WITH
  | TK_TRIPLE_EQUAL | TK_EXCLAMATION_MARK_DOUBLE_EQUALS => Some (20, 21)
  | TK_DOUBLE_DOT => Some (25, 26)
  | TK_PLUS | TK_MINUS => Some (30, 31)
  | TK_TILDE => Some (40, 41)
  | TK_STAR | TK_FORWARD_SLASH | TK_DOUBLE_FORWARD_SLASH | TK_PERCENT => Some (60, 61)
  | TK_IS | TK_IS_NOT => Some (100, 101)
  | TK_DOUBLE_STAR => Some (121, 120)
  | TK_DOUBLE_QUESTION_MARK => Some (151, 150)
  | _ => None
  end.

(** expression.rs:127-134 unary_binding_power *)
Definition unary_binding_power (k : kind) : option nat :=
  match k with
  | TK_NOT => Some 51
  | TK_PLUS | TK_MINUS => Some 201
  | TK_TRIPLE_DOT => Some 211
  | _ => None
  end.

(** expression.rs:73-75, 137: recursive entry points *)
Definition parse_twig_expression_binding_power (bp : nat) : prog (option nat) :=
  Call (CExpr bp) (fun r => Ret r).
(** expression.rs:73-75 *)
Definition parse_twig_expression : prog (option nat) := parse_twig_expression_binding_power 0.

(** literal.rs:475-487 *)
Definition parse_twig_name : prog (option nat) :=
  is_at_special <- at_set [TK_SAME_AS; TK_DIVISIBLE_BY] ;;
  ot <- peek_token ;;
  match ot with
  | None => Ret None
  | Some t =>
    if negb is_at_special && negb (rfull TWIG_NAME_REGEX (tk_text t)) then Ret None else
    m <- start ;;
    bump_as TK_WORD ;;
    m <- complete m TWIG_LITERAL_NAME ;;
    Ret (Some m)
  end.

(** literal.rs:73-79 *)
Definition parse_twig_number : prog nat :=
  debug_assert (l_at TK_NUMBER) ;;
  m <- start ;; bump ;; complete m TWIG_LITERAL_NUMBER.

(** literal.rs:167-173 *)
Definition parse_twig_null : prog nat :=
  debug_assert (l_at TK_NULL) ;;
  m <- start ;; bump ;; complete m TWIG_LITERAL_NULL.

(** literal.rs:175-181 *)
Definition parse_twig_boolean : prog nat :=
  debug_assert (l_at_set [TK_TRUE; TK_FALSE]) ;;
  m <- start ;; bump ;; complete m TWIG_LITERAL_BOOLEAN.

(** literal.rs:98-131 the child closure of parse_twig_string *)
Definition twig_string_child (quote_kind : kind) (interpolation_allowed : bool) : prog unit :=
  If at_following [TK_BACKWARD_SLASH; quote_kind] Then bump ;; bump ;; Ret tt
  Else If at_following [TK_HASHTAG; TK_OPEN_CURLY] Then
    (if negb interpolation_allowed then
       opening_token <- bump ;;
       add_error_at (txt "no string interpolation, because it isn't allowed here") opening_token
     else
       explicitly_consume_trivia ;;
       interpolation_m <- start ;;
       bump ;; bump ;;
       e <- parse_twig_expression ;;
       when (is_none e) (add_error "twig expression") ;;
       expect TK_CLOSE_CURLY TWIG_EXPRESSION_RECOVERY_SET ;;
       complete interpolation_m TWIG_LITERAL_STRING_INTERPOLATION ;;
       Ret tt)
  Else (bump ;; Ret tt).

(** literal.rs:81-138 *)
Definition parse_twig_string (interpolation_allowed : bool) : prog nat :=
  debug_assert (l_at_set [TK_DOUBLE_QUOTES; TK_SINGLE_QUOTES]) ;;
  m <- start ;;
  starting_quote_token <- bump ;;
  let quote_kind := tk_kind starting_quote_token in
  let interpolation_allowed := kind_eqb quote_kind TK_DOUBLE_QUOTES && interpolation_allowed in
  m_inner <- start ;;
  parse_many (at_ quote_kind) (twig_string_child quote_kind interpolation_allowed) ;;
  explicitly_consume_trivia ;;
  complete m_inner TWIG_LITERAL_STRING_INNER ;;
  expect quote_kind TWIG_EXPRESSION_RECOVERY_SET ;;
  complete m TWIG_LITERAL_STRING.

(** literal.rs:140-165 *)
Definition parse_twig_array : prog nat :=
  debug_assert (l_at TK_OPEN_SQUARE) ;;
  m <- start ;; bump ;;
  list_m <- start ;;
  parse_many (at_ TK_CLOSE_SQUARE)
    (parse_twig_expression ;;
     If at_ TK_COMMA Then bump ;; Ret tt
     Else If at_ TK_CLOSE_SQUARE Then Ret tt Else add_error ",") ;;
  complete list_m TWIG_LITERAL_ARRAY_INNER ;;
  expect TK_CLOSE_SQUARE TWIG_EXPRESSION_RECOVERY_SET ;;
  complete m TWIG_LITERAL_ARRAY.

(** literal.rs:210-237: the key of a hash pair *)
Definition parse_twig_hash_key : prog (option nat) :=
  If at_ TK_NUMBER Then
    m <- parse_twig_number ;;
    preceded <- precede m ;;
    k <- complete preceded TWIG_LITERAL_HASH_KEY ;; Ret (Some k)
  Else If at_set [TK_SINGLE_QUOTES; TK_DOUBLE_QUOTES] Then
    m <- parse_twig_string false ;;
    preceded <- precede m ;;
    k <- complete preceded TWIG_LITERAL_HASH_KEY ;; Ret (Some k)
  Else If at_ TK_OPEN_PARENTHESIS Then
    m <- start ;; bump ;;
    e <- parse_twig_expression ;;
    when (is_none e) (add_error "twig expression" ;; recover TWIG_EXPRESSION_RECOVERY_SET) ;;
    expect TK_CLOSE_PARENTHESIS TWIG_EXPRESSION_RECOVERY_SET ;;
    k <- complete m TWIG_LITERAL_HASH_KEY ;; Ret (Some k)
  Else (
    ot <- peek_token ;;
    match ot with
    | None => Ret None
    | Some t =>
      if rfull TWIG_NAME_REGEX (tk_text t) then
        m <- start ;; bump_as TK_WORD ;;
        k <- complete m TWIG_LITERAL_HASH_KEY ;; Ret (Some k)
      else Ret None
    end).

(** literal.rs:210-250 *)
Definition parse_twig_hash_pair : prog (option nat) :=
  okey <- parse_twig_hash_key ;;
  match okey with
  | None => Ret None
  | Some key =>
    (If at_ TK_COLON Then
       bump ;;
       e <- parse_twig_expression ;;
       when (is_none e)
         (add_error "value as twig expression" ;; recover TWIG_EXPRESSION_RECOVERY_SET)
     Else Ret tt) ;;
    preceded <- precede key ;;
    p <- complete preceded TWIG_LITERAL_HASH_PAIR ;; Ret (Some p)
  end.

(** literal.rs:183-208 *)
Definition parse_twig_hash : prog nat :=
  debug_assert (l_at TK_OPEN_CURLY) ;;
  m <- start ;; bump ;;
  list_m <- start ;;
  parse_many (at_ TK_CLOSE_CURLY)
    (parse_twig_hash_pair ;;
     If at_ TK_COMMA Then bump ;; Ret tt
     Else If at_ TK_CLOSE_CURLY Then Ret tt Else add_error ",") ;;
  complete list_m TWIG_LITERAL_HASH_ITEMS ;;
  expect TK_CLOSE_CURLY TWIG_EXPRESSION_RECOVERY_SET ;;
  complete m TWIG_LITERAL_HASH.

(** literal.rs:461-473 *)
Definition parse_twig_function_argument : prog (option nat) :=
  If at_following [TK_WORD; TK_EQUAL] Then
    named_arg_m <- start ;;
    bump ;;
    expect TK_EQUAL TWIG_EXPRESSION_RECOVERY_SET ;;
    parse_twig_expression ;;
    c <- complete named_arg_m TWIG_NAMED_ARGUMENT ;; Ret (Some c)
  Else parse_twig_expression.

(** literal.rs:275-286 and 397-408: arguments up to one of [closing] *)
Definition parse_arguments (closing : list kind) : prog unit :=
  parse_many (at_set closing)
    (parse_twig_function_argument ;;
     If at_ TK_COMMA Then bump ;; Ret tt
     Else If at_set closing Then Ret tt Else add_error ",").

(** literal.rs:252-294 *)
Definition parse_twig_filter (last_node : nat) : prog nat :=
  debug_assert (l_at TK_SINGLE_PIPE) ;;
  m <- precede last_node ;;
  last_node <- complete m TWIG_OPERAND ;;
  outer <- precede last_node ;;
  bump ;;
  m <- start ;;
  n <- parse_twig_name ;;
  (if is_none n then
     add_error "twig filter" ;; recover TWIG_EXPRESSION_RECOVERY_SET
   else If at_ TK_OPEN_PARENTHESIS Then
     arguments_m <- start ;;
     bump ;;
     parse_arguments [TK_CLOSE_PARENTHESIS] ;;
     expect TK_CLOSE_PARENTHESIS TWIG_EXPRESSION_RECOVERY_SET ;;
     complete arguments_m TWIG_ARGUMENTS ;; Ret tt
   Else Ret tt) ;;
  complete m TWIG_OPERAND ;;
  complete outer TWIG_FILTER.

(** literal.rs:296-340 *)
Definition parse_twig_indexer (last_node : nat) : prog nat :=
  debug_assert (l_at TK_OPEN_SQUARE) ;;
  m <- precede last_node ;;
  last_node <- complete m TWIG_OPERAND ;;
  outer <- precede last_node ;;
  bump ;;
  index_m <- start ;;
  lower <- parse_twig_expression ;;
  is_slice <- at_ TK_COLON ;;
  missing_upper <-
    (if is_slice then bump ;; upper <- parse_twig_expression ;; Ret (is_none upper)
     else Ret true) ;;
  when (is_none lower && missing_upper)
    (add_error "twig expression" ;; recover TWIG_EXPRESSION_RECOVERY_SET) ;;
  complete index_m (if is_slice : bool then TWIG_INDEX_RANGE else TWIG_INDEX) ;;
  expect TK_CLOSE_SQUARE TWIG_EXPRESSION_RECOVERY_SET ;;
  complete outer TWIG_INDEX_LOOKUP.

(** literal.rs:382-414 *)
Definition parse_twig_function (last_node : nat) : prog nat :=
  debug_assert (l_at TK_OPEN_PARENTHESIS) ;;
  m <- precede last_node ;;
  last_node <- complete m TWIG_OPERAND ;;
  outer <- precede last_node ;;
  arguments_m <- start ;;
  bump ;;
  parse_arguments [TK_CLOSE_PARENTHESIS] ;;
  expect TK_CLOSE_PARENTHESIS TWIG_EXPRESSION_RECOVERY_SET ;;
  complete arguments_m TWIG_ARGUMENTS ;;
  complete outer TWIG_FUNCTION_CALL.

(** literal.rs:342-380 *)
Definition parse_twig_accessor (last_node : nat) : prog nat :=
  debug_assert (l_at TK_DOT) ;;
  m <- precede last_node ;;
  last_node <- complete m TWIG_OPERAND ;;
  outer <- precede last_node ;;
  bump ;;
  m <- start ;;
  If at_ TK_NUMBER Then
    n <- parse_twig_number ;;
    n <- precede n ;;
    complete n TWIG_EXPRESSION ;;
    complete m TWIG_INDEX ;;
    complete outer TWIG_INDEX_LOOKUP
  Else (
    nm <- parse_twig_name ;;
    when (is_none nm)
      (add_error "twig variable property, key or method" ;; recover TWIG_EXPRESSION_RECOVERY_SET) ;;
    complete m TWIG_OPERAND ;;
    node <- complete outer TWIG_ACCESSOR ;;
    If at_ TK_OPEN_PARENTHESIS Then parse_twig_function node Else Ret node).

(** literal.rs:418-436 *)
Definition parse_twig_test_implicit_argument (last_node : nat) : prog nat :=
  m <- precede last_node ;;
  operand <- complete m TWIG_OPERAND ;;
  outer <- precede operand ;;
  arguments_m <- start ;;
  e <- parse_twig_expression ;;
  when (is_none e)
    (add_error "argument for twig test" ;; recover TWIG_EXPRESSION_RECOVERY_SET) ;;
  complete arguments_m TWIG_ARGUMENTS ;;
  complete outer TWIG_FUNCTION_CALL.

(** literal.rs:438-459 *)
Definition parse_twig_arrow_function (last_node : nat) : prog nat :=
  debug_assert_site SArrow (l_at TK_EQUAL_GREATER_THAN) ;;
  outer <- precede last_node ;;
  bump_site SArrow ;;
  e <- parse_twig_expression ;;
  when (is_none e)
    (add_error "single twig expression as the body of the closure" ;;
     recover TWIG_EXPRESSION_RECOVERY_SET) ;;
  complete outer TWIG_ARROW_FUNCTION.

(** literal.rs:52-71 *)
Definition parse_postfix_operators (node : nat) : prog nat :=
  parse_many_st (fun node => Ret (false, node))
    (fun node =>
       If at_ TK_DOT Then parse_twig_accessor node
       Else If at_ TK_OPEN_SQUARE Then parse_twig_indexer node
       Else If at_ TK_SINGLE_PIPE Then parse_twig_filter node
       Else Ret node) node.

(** literal.rs:14-49 *)
Definition parse_twig_literal : prog (option nat) :=
  If at_ TK_NUMBER Then m <- parse_twig_number ;; Ret (Some m)
  Else If at_set [TK_DOUBLE_QUOTES; TK_SINGLE_QUOTES] Then m <- parse_twig_string true ;; Ret (Some m)
  Else If at_ TK_OPEN_SQUARE Then m <- parse_twig_array ;; Ret (Some m)
  Else If at_ TK_NULL Then m <- parse_twig_null ;; Ret (Some m)
  Else If at_set [TK_TRUE; TK_FALSE] Then m <- parse_twig_boolean ;; Ret (Some m)
  Else If at_ TK_OPEN_CURLY Then m <- parse_twig_hash ;; Ret (Some m)
  Else (
    token_kind <- look l_kind ;;
    on <- parse_twig_name ;;
    match on with
    | None => Ret None
    | Some node =>
      If at_ TK_OPEN_PARENTHESIS Then n <- parse_twig_function node ;; Ret (Some n)
      Else If at_ TK_EQUAL_GREATER_THAN Then
        m <- precede node ;;
        last_node <- complete m TWIG_ARGUMENTS ;;
        n <- parse_twig_arrow_function last_node ;; Ret (Some n)
      Else
        match token_kind with
        | Some TK_SAME_AS | Some TK_DIVISIBLE_BY =>
          n <- parse_twig_test_implicit_argument node ;; Ret (Some n)
        | _ => Ret (Some node)
        end
    end).

(** expression.rs:195-239 *)
Definition parse_conditional_expression (lhs : nat) : prog (option nat) :=
  If at_ TK_QUESTION_MARK Then
    m <- precede lhs ;;
    bump ;;
    e <- parse_twig_expression_binding_power 0 ;;
    bad <- (if is_none e then c <- at_ TK_COLON ;; Ret (negb c) else Ret false) ;;
    when bad
      (add_error "twig expression or ':'" ;;
       recover [TK_COLON; TK_CLOSE_CURLY_CURLY; TK_MINUS_CLOSE_CURLY_CURLY; TK_TILDE_CLOSE_CURLY_CURLY; TK_PERCENT_CURLY; TK_MINUS_PERCENT_CURLY; TK_TILDE_PERCENT_CURLY]) ;;
    (If at_ TK_COLON Then
       bump ;;
       e2 <- parse_twig_expression_binding_power 0 ;;
       when (is_none e2)
         (add_error "twig expression" ;;
          recover [TK_CLOSE_CURLY_CURLY; TK_MINUS_CLOSE_CURLY_CURLY; TK_TILDE_CLOSE_CURLY_CURLY; TK_PERCENT_CURLY; TK_MINUS_PERCENT_CURLY; TK_TILDE_PERCENT_CURLY])
     Else Ret tt) ;;
    conditional_m <- complete m TWIG_CONDITIONAL_EXPRESSION ;;
    outer <- precede conditional_m ;;
    c <- complete outer TWIG_EXPRESSION ;; Ret (Some c)
  Else Ret None.

(** expression.rs:157-177: the operator loop; state: (lhs, is_binary) *)
Definition binary_loop (minimum_binding_power : nat) (lhs : nat) : prog (nat * bool) :=
  Iter (fun st : nat * bool =>
    let (lhs, is_binary) := st in
    ot <- peek_token ;;
    match match ot with Some t => binary_binding_power (tk_kind t) | None => None end with
    | None => Ret (inr (lhs, is_binary))
    | Some (left_binding_power, right_binding_power) =>
      if Nat.ltb left_binding_power minimum_binding_power then Ret (inr (lhs, is_binary)) else
      bump ;;
      m <- precede lhs ;;
      r <- parse_twig_expression_binding_power right_binding_power ;;
      lhs <- complete m TWIG_BINARY_EXPRESSION ;;
      if is_none r then Ret (inr (lhs, true)) else Ret (inl (lhs, true))
    end) (lhs, false) (fun r => Ret r).

(** expression.rs:151-193 *)
Definition parse_twig_expression_binding_power_rhs (minimum_binding_power : nat) (lhs : nat)
  : prog nat :=
  ' (lhs, is_binary) <- binary_loop minimum_binding_power lhs ;;
  lhs <- (if is_binary : bool then m <- precede lhs ;; complete m TWIG_EXPRESSION else Ret lhs) ;;
  if Nat.eqb minimum_binding_power 0 then
    c <- parse_conditional_expression lhs ;;
    match c with Some m => Ret m | None => Ret lhs end
  else Ret lhs.

(** expression.rs:260-300 *)
Definition parse_paren_expression : prog (nat * bool) :=
  debug_assert (l_at TK_OPEN_PARENTHESIS) ;;
  m <- start ;;
  bump ;;
  ot <- peek_token ;;
  arrow <-
    (if match ot with Some t => is_none (unary_binding_power (tk_kind t)) | None => false end then
       on <- parse_twig_name ;;
       match on with
       | Some lit_m =>
         a <- (c <- at_ TK_COMMA ;; if c then Ret true else at_following [TK_CLOSE_PARENTHESIS; TK_EQUAL_GREATER_THAN]) ;;
         if a : bool then Ret true else
         lit_m <- (If at_ TK_OPEN_PARENTHESIS Then parse_twig_function lit_m Else Ret lit_m) ;;
         lit_m <- parse_postfix_operators lit_m ;;
         expr_m <- precede lit_m ;;
         lhs <- complete expr_m TWIG_EXPRESSION ;;
         parse_twig_expression_binding_power_rhs 0 lhs ;;
         Ret false
       | None => parse_twig_expression_binding_power 0 ;; Ret false
       end
     else parse_twig_expression_binding_power 0 ;; Ret false) ;;
  if arrow : bool then Ret (m, false) else
  expect TK_CLOSE_PARENTHESIS TWIG_EXPRESSION_RECOVERY_SET ;;
  Ret (m, true).

(** expression.rs:302-319 *)
Definition parse_paren_arrow_function (m : nat) : prog nat :=
  debug_assert (fun r => l_at TK_COMMA r || l_at TK_CLOSE_PARENTHESIS r) ;;
  parse_many (at_ TK_CLOSE_PARENTHESIS)
    (expect TK_COMMA TWIG_EXPRESSION_RECOVERY_SET ;; parse_twig_name ;; Ret tt) ;;
  expect TK_CLOSE_PARENTHESIS TWIG_EXPRESSION_RECOVERY_SET ;;
  last_node <- complete m TWIG_ARGUMENTS ;;
  parse_twig_arrow_function last_node.

(** expression.rs:321-335 *)
Definition parse_unary_expression : prog nat :=
  debug_assert (l_at_set [TK_MINUS; TK_PLUS; TK_NOT; TK_TRIPLE_DOT]) ;;
  m <- start ;;
  op_token <- bump ;;
  match unary_binding_power (tk_kind op_token) with
  | None => fail PUnary
  | Some bp =>
    parse_twig_expression_binding_power bp ;;
    complete m TWIG_UNARY_EXPRESSION
  end.

(** expression.rs:241-258 *)
Definition parse_twig_expression_lhs : prog (option nat) :=
  If at_ TK_OPEN_PARENTHESIS Then
    ' (m, is_paren_expression) <- parse_paren_expression ;;
    (if is_paren_expression : bool then
       node <- complete m TWIG_PARENTHESES_EXPRESSION ;;
       n <- parse_postfix_operators node ;; Ret (Some n)
     else n <- parse_paren_arrow_function m ;; Ret (Some n))
  Else If at_set [TK_MINUS; TK_PLUS; TK_NOT; TK_TRIPLE_DOT] Then
    n <- parse_unary_expression ;; Ret (Some n)
  Else (
    ol <- parse_twig_literal ;;
    match ol with
    | None => Ret None
    | Some node => n <- parse_postfix_operators node ;; Ret (Some n)
    end).

(** expression.rs:137-149 *)
Definition body_expression (minimum_binding_power : nat) : prog (option nat) :=
  ol <- parse_twig_expression_lhs ;;
  match ol with
  | None => Ret None
  | Some lhs =>
    m <- precede lhs ;;
    lhs <- complete m TWIG_EXPRESSION ;;
    lhs <- parse_twig_expression_binding_power_rhs minimum_binding_power lhs ;;
    Ret (Some lhs)
  end.
