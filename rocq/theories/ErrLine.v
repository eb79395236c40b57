(** No message of the parser has a line break.  Machinery for C87. *)
From Coq Require Import NArith String DecimalString Bool Arith Lia List.
Import ListNotations.
From Verif Require Import Text Kind Regex Lexer LexerProofs ParserApi GrammarExpr GrammarTags GrammarHtml Machine Simulation.
Local Notation length := List.length (only parsing).
Local Open Scope list_scope.
Local Open Scope prog_scope.

Definition line (s : text) : bool := forallb (fun c => negb (N.eqb c 10)) s.
Lemma line_app a b : line a = true -> line b = true -> line (a ++ b) = true.
Proof. unfold line. rewrite forallb_app. now intros -> ->. Qed.
Lemma line_nat n : line (nat_text n) = true.
Proof.
  assert (C : forall c w, negb (N.eqb (Ascii.N_of_ascii c) 10) = true -> line (txt w) = true -> line (txt (String c w)) = true).
  { intros c w H F. cbn [txt]. unfold line. cbn [forallb]. now rewrite H. }
  assert (H : forall d, line (txt (NilEmpty.string_of_uint d)) = true).
  { induction d; cbn [NilEmpty.string_of_uint]; [reflexivity|..]; (apply C; [reflexivity|assumption]). }
  unfold nat_text. destruct (Nat.to_uint n) as [|d|d|d|d|d|d|d|d|d|d]; [reflexivity|..]; apply (H (_ d)).
Qed.
Lemma line_display k s : kind_display k = Some s -> line (txt s) = true.
Proof.
  assert (H : match kind_display k with Some s => line (txt s) | None => true end = true) by (destruct k; reflexivity).
  intros E. now rewrite E in H.
Qed.

(** What is known of the values the parser works with: the texts of tokens are within a line. *)
Class Good (A : Set) := good : A -> Prop.
#[global] Instance good_token : Good token := fun t => line (tk_text t) = true.
#[global] Instance good_opt : Good (option token) := fun o => match o with Some t => line (tk_text t) = true | None => True end.
#[global] Instance good_text : Good text := fun s => line s = true.
#[global] Instance good_sum : Good (unit + option token) := fun x => match x with inr (Some t) => line (tk_text t) = true | _ => True end.
#[global] Instance good_any (A : Set) : Good A | 100 := fun _ => True.

Definition oline (o : option text) : Prop := match o with Some s => line s = true | None => True end.

Section Run.
  Context (dbg : bool) (T : list token) (N : nat).
  Hypothesis Lines : forall t, In t T -> is_trivia (tk_kind t) = false -> line (tk_text t) = true.
  Definition Inv (s : cstate) : Prop := incl (c_rest s) T /\ forall e, In e (c_errs s) -> line (err_expected e) = true.
  Lemma drop_incl r : incl (drop_trivia r) r.
  Proof. induction r as [|t r IH]; [apply incl_refl|]. cbn [drop_trivia]. destruct (is_trivia (tk_kind t)); [now apply incl_tl|apply incl_refl]. Qed.
  Lemma drop_head r t q : drop_trivia r = t :: q -> is_trivia (tk_kind t) = false.
  Proof. induction r as [|x r IH]; [discriminate|]. cbn [drop_trivia]. destruct (is_trivia (tk_kind x)) eqn:E; [exact IH|]. intros H. injection H as <- <-. exact E. Qed.
  Lemma head_line s t q : Inv s -> drop_trivia (c_rest s) = t :: q -> line (tk_text t) = true.
  Proof. intros [V _] E. apply Lines; [|exact (drop_head _ _ _ E)]. apply V, drop_incl. rewrite E. now left. Qed.
  Definition told {B : Set} (o : op B) : bool := match o with AddErr e _ => line e | _ => true end.
  Lemma inv_step (B : Set) (o : op B) s b s' : Inv s -> told o = true -> cstep dbg B o s = OK (b, s') -> Inv s'.
  Proof.
    intros V O E. pose proof V as [V1 V2]. pose proof (incl_tran (drop_incl (c_rest s)) V1) as V3.
    destruct o as [| |site as_|n kd| |e tok| |m kd|c|q|site f]; cbn [cstep] in E.
    - injection E as <- <-. split; assumption.
    - injection E as <- <-. exact V.
    - destruct (drop_trivia (c_rest s)) as [|t ts]; [discriminate|]. injection E as <- <-. split; [|exact V2]. intros x X. apply V3. now right.
    - destruct (Nat.eqb _ n); [|discriminate]. injection E as <- <-. split; [|exact V2]. intros x X. apply V3. cbn [c_rest] in X. rewrite <- (firstn_skipn n (drop_trivia (c_rest s))). apply in_or_app. now right.
    - injection E as <- <-. split; assumption.
    - cbn [told] in O. destruct tok as [tok|].
      + injection E as <- <-. split; [exact V1|]. cbn [c_errs]. intros x X. apply in_app_or in X as [X|[<-|[]]]; [exact (V2 x X)|exact O].
      + destruct (error_here _ _ e) as [err|q|] eqn:Er; try discriminate. cbn [rbind] in E. injection E as <- <-. split; [exact V3|]. cbn [c_errs].
        intros x X. apply in_app_or in X as [X|[<-|[]]]; [exact (V2 x X)|]. unfold error_here in Er. destruct (drop_trivia (c_rest s)); [destruct (rev _); [discriminate|]|]; injection Er as <-; exact O.
    - injection E as <- <-. split; assumption.
    - unfold c_complete in E. destruct (dbg && _)%bool; [discriminate|]. destruct (nth_error _ m); [|discriminate]. destruct (dbg && _)%bool; [discriminate|]. injection E as <- <-. split; assumption.
    - unfold c_precede in E. unfold c_start in E; cbn [c_events] in E. match type of E with context [nth_error ?l c] => destruct (nth_error l c) as [[k0 fp| | | | |]|]; try discriminate end. injection E as <- <-. split; assumption.
    - discriminate.
    - destruct dbg; [destruct (f _); [|discriminate]|]; injection E as <- <-; [split; assumption|exact V].
  Qed.

  (** * Programs *)
  Local Notation steps n p s := (run (cstep dbg) n p s).
  Hypothesis Calls : forall c n s a s', n < N -> Inv s -> steps n (body c) s = OK (a, s') -> Inv s'.
  Definition fair {A : Set} {G : Good A} (p : prog A) : Prop := forall n s a s', n <= N -> Inv s -> steps n p s = OK (a, s') -> Inv s' /\ good a.
  Lemma fair_ret (A : Set) {G : Good A} (a : A) : good a -> fair (Ret a).
  Proof. intros H n s b s' _ V E. rewrite run_Ret in E. injection E as <- <-. split; [exact V|exact H]. Qed.
  Lemma fair_bind (A B : Set) {GA : Good A} {GB : Good B} (p : prog A) (g : A -> prog B) : fair p -> (forall a, good a -> fair (g a)) -> fair (bind p g).
  Proof.
    intros H K n s b s' L V E. rewrite run_bind in E. destruct (run _ n p s) as [[a s1]|q|] eqn:E1; try discriminate. cbn [rbind fst snd] in E.
    destruct (H _ _ _ _ L V E1) as [V1 W]. exact (K a W _ _ _ _ L V1 E).
  Qed.
  Lemma fair_op (A B : Set) {G : Good A} (o : op B) (g : B -> prog A) : told o = true -> (forall b, fair (g b)) -> fair (Op o g).
  Proof.
    intros O K n s a s' L V E. rewrite run_Op in E. destruct (cstep dbg B o s) as [[b s1]|q|] eqn:E1; try discriminate. cbn [rbind fst snd] in E.
    exact (K b _ _ _ _ L (inv_step _ _ _ _ _ V O E1) E).
  Qed.
  Lemma fair_prim (B : Set) (o : op B) : told o = true -> @fair B (good_any B) (prim o).
  Proof. intros O. apply fair_op; [exact O|]. intros. apply fair_ret. exact I. Qed.
  Lemma fair_look (B : Set) (f : list token -> B) : @fair B (good_any B) (look f).
  Proof. apply fair_op; [reflexivity|]. intros. apply fair_ret. exact I. Qed.
  Lemma fair_fail (B : Set) {G : Good B} p : fair (@fail B p).
  Proof. apply fair_op; [reflexivity|]. intros []. Qed.
  Lemma fair_take site as_ : fair (prim (BumpAs site as_)).
  Proof.
    intros n s a s' L V E. unfold prim in E. rewrite run_Op in E. destruct (cstep dbg _ _ s) as [[t s1]|q|] eqn:E1; try discriminate. cbn [rbind fst snd] in E. rewrite run_Ret in E. injection E as <- <-.
    split; [refine (inv_step _ _ _ _ _ V _ E1); reflexivity|]. cbn [cstep] in E1. destruct (drop_trivia (c_rest s)) as [|u l] eqn:Dr; [discriminate|]. injection E1 as <- _. exact (head_line _ _ _ V Dr).
  Qed.
  Lemma f_peek_token : fair peek_token.
  Proof.
    intros n s a s' L V E. unfold peek_token, look in E. rewrite run_Op in E. cbn [cstep rbind fst snd] in E. rewrite run_Ret in E. injection E as <- <-.
    split; [refine (inv_step _ Look s _ _ V _ eq_refl); reflexivity|]. destruct (drop_trivia (c_rest s)) as [|u l] eqn:Dr; [exact I|]. exact (head_line _ _ _ V Dr).
  Qed.
  Lemma fair_call (A : Set) {G : Good A} c (k : option nat -> prog A) : (forall a, fair (k a)) -> fair (Call c k).
  Proof.
    intros H n s a s' L V E. rewrite run_Call in E. destruct n as [|n]; [discriminate|].
    match type of E with rbind ?r _ = _ => destruct r as [[b s1]|q|] eqn:E1; try discriminate end. cbn [rbind fst snd] in E.
    refine (H b _ _ _ _ L (Calls c n _ _ _ _ V E1) E). lia.
  Qed.
  Lemma turns (X B : Set) (Q : B -> Prop) (GS : Good (X + B)) (f : X -> prog (X + B)) : (forall b, @good _ GS (inr b) -> Q b) -> (forall x, fair (f x)) ->
    forall n x s b s', n <= N -> Inv s -> steps n (Iter f x (fun b => Ret b)) s = OK (b, s') -> Inv s' /\ Q b.
  Proof.
    intros HQ H. induction n as [n IH] using (well_founded_induction lt_wf). intros x s b s' L V E. rewrite run_Iter in E.
    match type of E with rbind (rbind ?r _) _ = _ => destruct r as [[y s1]|q|] eqn:E1; try discriminate end. cbn [rbind fst snd] in E.
    destruct (H x _ _ _ _ L V E1) as [Z W]. destruct y as [x'|b'].
    - destruct n as [|n]; [discriminate E|]. match type of E with rbind ?r _ = _ => destruct r as [[z s2]|q|] eqn:E2; try discriminate end. cbn [rbind fst snd] in E.
      rewrite run_Ret in E. injection E as <- <-. eapply (IH n); [lia|lia|exact Z|exact E2].
    - cbn [rbind fst snd] in E. rewrite run_Ret in E. injection E as <- <-. split; [exact Z|exact (HQ _ W)].
  Qed.
  Lemma fair_iter_q (A X B : Set) (Q : B -> Prop) {G : Good A} {GS : Good (X + B)} (f : X -> prog (X + B)) x (k : B -> prog A) :
    (forall b, @good _ GS (inr b) -> Q b) -> (forall x, fair (f x)) -> (forall b, Q b -> fair (k b)) -> fair (Iter f x k).
  Proof.
    intros HQ H K n s a s' L V E. rewrite run_Iter in E. match type of E with rbind ?r _ = _ => destruct r as [[b s2]|q|] eqn:E2; try discriminate end. cbn [rbind fst snd] in E.
    assert (Z : Inv s2 /\ Q b). { apply (turns _ _ Q GS f HQ H n x s b s2 L V). rewrite run_Iter, E2. cbn [rbind fst snd]. apply run_Ret. }
    destruct Z as [Z W]. exact (K b W _ _ _ _ L Z E).
  Qed.
  Lemma fair_iter (A X B : Set) {G : Good A} (f : X -> prog (X + B)) x (k : B -> prog A) :
    (forall x, @fair _ (good_any _) (f x)) -> (forall b, fair (k b)) -> fair (Iter f x k).
  Proof. intros H K. apply (fair_iter_q A X B (fun _ => True) (GS := good_any _)); auto. Qed.

  (** * Every function of the grammar *)
  Create HintDb fair discriminated.
  #[local] Hint Constants Opaque : fair.
  #[local] Hint Resolve fair_look f_peek_token : fair.
  Ltac lines := first [assumption|reflexivity|match goal with H : good ?o |- line (match ?o with Some _ => _ | None => _ end) = true => destruct o; [exact H|reflexivity] end|apply line_nat|apply line_app; [lines|lines]].
  #[local] Hint Extern 0 (line _ = true) => lines : fair.
  #[local] Hint Extern 0 (oline _) => match goal with |- oline (option_map _ ?o) => destruct o; [assumption|exact I] end : fair.
  Ltac fair1 :=
    lazymatch goal with
    | |- fair (Ret _) => apply fair_ret; first [exact I|assumption]
    | |- fair (bind _ _) => eapply fair_bind; [|intros]
    | |- fair (if ?b then _ else _) => destruct b
    | |- fair (match ?x with _ => _ end) => destruct x
    | |- fair (when ?b _) => unfold when
    | |- fair (parse_many_st _ _ _) => unfold parse_many_st
    | |- fair (parse_many _ _) => unfold parse_many
    | |- fair (parse_body _ _) => unfold parse_body
    | |- fair (Iter _ _ _) => apply fair_iter; intros
    | |- fair (Call _ _) => apply fair_call; intros
    | |- fair (fail _) => apply fair_fail
    | |- fair bump => apply fair_take
    | |- fair (bump_site _) => apply fair_take
    | |- fair (bump_as _) => apply fair_take
    | |- fair (prim _) => apply fair_prim; reflexivity
    | |- fair (complete _ _) => apply fair_prim; reflexivity
    | |- fair (debug_assert_site _ _) => apply fair_prim; reflexivity
    | |- fair explicitly_consume_trivia => apply fair_prim; reflexivity
    | |- fair (add_error _) => apply fair_prim; cbn [told]; lines
    | |- fair (add_error_t _) => apply fair_prim; cbn [told]; lines
    | |- fair (add_error_at _ _) => apply fair_prim; cbn [told]; lines
    | |- fair _ => solve [auto with fair nocore]
    end.
  Ltac fairs := cbv beta iota zeta; repeat (fair1; cbv beta iota zeta).
  Lemma f_at_ : forall k, fair (at_ k).
  Proof. intros. unfold at_. fairs. Qed.
  #[local] Hint Resolve f_at_ : fair.
  Lemma f_at_set : forall s, fair (at_set s).
  Proof. intros. unfold at_set. fairs. Qed.
  #[local] Hint Resolve f_at_set : fair.
  Lemma f_at_end : fair at_end.
  Proof. intros. unfold at_end. fairs. Qed.
  #[local] Hint Resolve f_at_end : fair.
  Lemma f_at_following : forall s, fair (at_following s).
  Proof. intros. unfold at_following. fairs. Qed.
  #[local] Hint Resolve f_at_following : fair.
  Lemma f_at_following_content : forall s, fair (at_following_content s).
  Proof. intros. unfold at_following_content. fairs. Qed.
  #[local] Hint Resolve f_at_following_content : fair.
  Lemma f_at_twig_tag : forall k, fair (at_twig_tag k).
  Proof. intros. unfold at_twig_tag. fairs. Qed.
  #[local] Hint Resolve f_at_twig_tag : fair.
  Lemma f_at_twig_block_open : fair at_twig_block_open.
  Proof. intros. unfold at_twig_block_open. fairs. Qed.
  #[local] Hint Resolve f_at_twig_block_open : fair.
  Lemma f_at_twig_block_close : fair at_twig_block_close.
  Proof. intros. unfold at_twig_block_close. fairs. Qed.
  #[local] Hint Resolve f_at_twig_block_close : fair.
  Lemma f_at_twig_var_open : fair at_twig_var_open.
  Proof. intros. unfold at_twig_var_open. fairs. Qed.
  #[local] Hint Resolve f_at_twig_var_open : fair.
  Lemma f_at_twig_comment_open : fair at_twig_comment_open.
  Proof. intros. unfold at_twig_comment_open. fairs. Qed.
  #[local] Hint Resolve f_at_twig_comment_open : fair.
  Lemma f_get_pos : fair get_pos.
  Proof. intros. unfold get_pos. fairs. Qed.
  #[local] Hint Resolve f_get_pos : fair.
  Lemma f_bump_next_n_as : forall n k, @fair _ (good_any _) (bump_next_n_as n k).
  Proof. intros. unfold bump_next_n_as. fairs. Qed.
  #[local] Hint Resolve f_bump_next_n_as : fair.
  Lemma f_start : fair start.
  Proof. intros. unfold start. fairs. Qed.
  #[local] Hint Resolve f_start : fair.
  Lemma f_precede : forall c, fair (precede c).
  Proof. intros. unfold precede. fairs. Qed.
  #[local] Hint Resolve f_precede : fair.
  Lemma f_debug_assert : forall f, fair (debug_assert f).
  Proof. intros. unfold debug_assert. fairs. Qed.
  #[local] Hint Resolve f_debug_assert : fair.
  Lemma f_recover_expect : forall expected set, fair (recover_expect expected set).
  Proof. intros. unfold recover_expect. eapply fair_bind; [fairs|]. intros stop _. destruct stop; [fairs|]. eapply fair_bind; [fairs|]. intros m _.
    apply (fair_iter_q _ unit (option token) (fun o => good o) (GS := good_sum)); [intros [t|] H; exact H| |intros b H; apply fair_ret; exact H]. intros _. fairs. Qed.
  #[local] Hint Resolve f_recover_expect : fair.
  Lemma f_recover : forall set, fair (recover set).
  Proof. intros. unfold recover. fairs. Qed.
  #[local] Hint Resolve f_recover : fair.
  Lemma f_display : forall k, fair (display k).
  Proof. intros. unfold display. destruct (kind_display k) eqn:E; [apply fair_ret; exact (line_display _ _ E)|apply fair_fail]. Qed.
  #[local] Hint Resolve f_display : fair.
  Lemma f_display_or : forall ks, fair (display_or ks).
  Proof. induction ks as [|k ks IH]; [apply fair_ret; reflexivity|]. cbn [display_or]. destruct ks; [apply f_display|]. eapply fair_bind; [apply f_display|]. intros d D. eapply fair_bind; [exact IH|]. intros r R. apply fair_ret. apply line_app; [exact D|]. apply line_app; [reflexivity|exact R]. Qed.
  #[local] Hint Resolve f_display_or : fair.
  Lemma f_expect : forall k set, fair (expect k set).
  Proof. intros. unfold expect. fairs. Qed.
  #[local] Hint Resolve f_expect : fair.
  Lemma f_expect_any : forall ks set, fair (expect_any ks set).
  Proof. intros. unfold expect_any. fairs. Qed.
  #[local] Hint Resolve f_expect_any : fair.
  Lemma f_parse_twig_expression_binding_power : forall bp, fair (parse_twig_expression_binding_power bp).
  Proof. intros. unfold parse_twig_expression_binding_power. fairs. Qed.
  #[local] Hint Resolve f_parse_twig_expression_binding_power : fair.
  Lemma f_parse_twig_expression : fair parse_twig_expression.
  Proof. intros. unfold parse_twig_expression. fairs. Qed.
  #[local] Hint Resolve f_parse_twig_expression : fair.
  Lemma f_parse_twig_name : fair parse_twig_name.
  Proof. intros. unfold parse_twig_name. fairs. Qed.
  #[local] Hint Resolve f_parse_twig_name : fair.
  Lemma f_parse_twig_number : fair parse_twig_number.
  Proof. intros. unfold parse_twig_number. fairs. Qed.
  #[local] Hint Resolve f_parse_twig_number : fair.
  Lemma f_parse_twig_null : fair parse_twig_null.
  Proof. intros. unfold parse_twig_null. fairs. Qed.
  #[local] Hint Resolve f_parse_twig_null : fair.
  Lemma f_parse_twig_boolean : fair parse_twig_boolean.
  Proof. intros. unfold parse_twig_boolean. fairs. Qed.
  #[local] Hint Resolve f_parse_twig_boolean : fair.
  Lemma f_twig_string_child : forall quote_kind interpolation_allowed, fair (twig_string_child quote_kind interpolation_allowed).
  Proof. intros. unfold twig_string_child. fairs. Qed.
  #[local] Hint Resolve f_twig_string_child : fair.
  Lemma f_parse_twig_string : forall interpolation_allowed, fair (parse_twig_string interpolation_allowed).
  Proof. intros. unfold parse_twig_string. fairs. Qed.
  #[local] Hint Resolve f_parse_twig_string : fair.
  Lemma f_parse_twig_array : fair parse_twig_array.
  Proof. intros. unfold parse_twig_array. fairs. Qed.
  #[local] Hint Resolve f_parse_twig_array : fair.
  Lemma f_parse_twig_hash_key : fair parse_twig_hash_key.
  Proof. intros. unfold parse_twig_hash_key. fairs. Qed.
  #[local] Hint Resolve f_parse_twig_hash_key : fair.
  Lemma f_parse_twig_hash_pair : fair parse_twig_hash_pair.
  Proof. intros. unfold parse_twig_hash_pair. fairs. Qed.
  #[local] Hint Resolve f_parse_twig_hash_pair : fair.
  Lemma f_parse_twig_hash : fair parse_twig_hash.
  Proof. intros. unfold parse_twig_hash. fairs. Qed.
  #[local] Hint Resolve f_parse_twig_hash : fair.
  Lemma f_parse_twig_function_argument : fair parse_twig_function_argument.
  Proof. intros. unfold parse_twig_function_argument. fairs. Qed.
  #[local] Hint Resolve f_parse_twig_function_argument : fair.
  Lemma f_parse_arguments : forall closing, fair (parse_arguments closing).
  Proof. intros. unfold parse_arguments. fairs. Qed.
  #[local] Hint Resolve f_parse_arguments : fair.
  Lemma f_parse_twig_filter : forall last_node, fair (parse_twig_filter last_node).
  Proof. intros. unfold parse_twig_filter. fairs. Qed.
  #[local] Hint Resolve f_parse_twig_filter : fair.
  Lemma f_parse_twig_indexer : forall last_node, fair (parse_twig_indexer last_node).
  Proof. intros. unfold parse_twig_indexer. fairs. Qed.
  #[local] Hint Resolve f_parse_twig_indexer : fair.
  Lemma f_parse_twig_function : forall last_node, fair (parse_twig_function last_node).
  Proof. intros. unfold parse_twig_function. fairs. Qed.
  #[local] Hint Resolve f_parse_twig_function : fair.
  Lemma f_parse_twig_accessor : forall last_node, fair (parse_twig_accessor last_node).
  Proof. intros. unfold parse_twig_accessor. fairs. Qed.
  #[local] Hint Resolve f_parse_twig_accessor : fair.
  Lemma f_parse_twig_test_implicit_argument : forall last_node, fair (parse_twig_test_implicit_argument last_node).
  Proof. intros. unfold parse_twig_test_implicit_argument. fairs. Qed.
  #[local] Hint Resolve f_parse_twig_test_implicit_argument : fair.
  Lemma f_parse_twig_arrow_function : forall last_node, fair (parse_twig_arrow_function last_node).
  Proof. intros. unfold parse_twig_arrow_function. fairs. Qed.
  #[local] Hint Resolve f_parse_twig_arrow_function : fair.
  Lemma f_parse_postfix_operators : forall node, fair (parse_postfix_operators node).
  Proof. intros. unfold parse_postfix_operators. fairs. Qed.
  #[local] Hint Resolve f_parse_postfix_operators : fair.
  Lemma f_parse_twig_literal : fair parse_twig_literal.
  Proof. intros. unfold parse_twig_literal. fairs. Qed.
  #[local] Hint Resolve f_parse_twig_literal : fair.
  Lemma f_parse_conditional_expression : forall lhs, fair (parse_conditional_expression lhs).
  Proof. intros. unfold parse_conditional_expression. fairs. Qed.
  #[local] Hint Resolve f_parse_conditional_expression : fair.
  Lemma f_binary_loop : forall minimum_binding_power lhs, fair (binary_loop minimum_binding_power lhs).
  Proof. intros. unfold binary_loop. fairs. Qed.
  #[local] Hint Resolve f_binary_loop : fair.
  Lemma f_parse_twig_expression_binding_power_rhs : forall minimum_binding_power lhs, fair (parse_twig_expression_binding_power_rhs minimum_binding_power lhs).
  Proof. intros. unfold parse_twig_expression_binding_power_rhs. fairs. Qed.
  #[local] Hint Resolve f_parse_twig_expression_binding_power_rhs : fair.
  Lemma f_parse_paren_expression : fair parse_paren_expression.
  Proof. intros. unfold parse_paren_expression. fairs. Qed.
  #[local] Hint Resolve f_parse_paren_expression : fair.
  Lemma f_parse_paren_arrow_function : forall m, fair (parse_paren_arrow_function m).
  Proof. intros. unfold parse_paren_arrow_function. fairs. Qed.
  #[local] Hint Resolve f_parse_paren_arrow_function : fair.
  Lemma f_parse_unary_expression : fair parse_unary_expression.
  Proof. intros. unfold parse_unary_expression. fairs. Qed.
  #[local] Hint Resolve f_parse_unary_expression : fair.
  Lemma f_parse_twig_expression_lhs : fair parse_twig_expression_lhs.
  Proof. intros. unfold parse_twig_expression_lhs. fairs. Qed.
  #[local] Hint Resolve f_parse_twig_expression_lhs : fair.
  Lemma f_body_expression : forall minimum_binding_power, fair (body_expression minimum_binding_power).
  Proof. intros. unfold body_expression. fairs. Qed.
  #[local] Hint Resolve f_body_expression : fair.
  Lemma f_at_twig_termination_tag : fair at_twig_termination_tag.
  Proof. intros. unfold at_twig_termination_tag. fairs. Qed.
  #[local] Hint Resolve f_at_twig_termination_tag : fair.
  Lemma f_call_child : forall f, fair (call_child f).
  Proof. intros. unfold call_child. fairs. Qed.
  #[local] Hint Resolve f_call_child : fair.
  Lemma f_parse_ending : forall kw r1 r2 r3 node, fair (parse_ending kw r1 r2 r3 node).
  Proof. intros. unfold parse_ending. fairs. Qed.
  #[local] Hint Resolve f_parse_ending : fair.
  Lemma f_expression_or : forall msg set, line (txt msg) = true -> fair (expression_or msg set).
  Proof. intros. unfold expression_or. fairs. Qed.
  #[local] Hint Resolve f_expression_or : fair.
  Lemma f_name_or : forall msg set, line (txt msg) = true -> fair (name_or msg set).
  Proof. intros. unfold name_or. fairs. Qed.
  #[local] Hint Resolve f_name_or : fair.
  Lemma f_string_or : forall msg set, line (txt msg) = true -> fair (string_or msg set).
  Proof. intros. unfold string_or. fairs. Qed.
  #[local] Hint Resolve f_string_or : fair.
  Lemma f_opt_bump : forall k, fair (opt_bump k).
  Proof. intros. unfold opt_bump. fairs. Qed.
  #[local] Hint Resolve f_opt_bump : fair.
  Lemma f_parse_twig_cache : forall outer child, fair (parse_twig_cache outer child).
  Proof. intros. unfold parse_twig_cache. fairs. Qed.
  #[local] Hint Resolve f_parse_twig_cache : fair.
  Lemma f_parse_twig_with : forall outer child, fair (parse_twig_with outer child).
  Proof. intros. unfold parse_twig_with. fairs. Qed.
  #[local] Hint Resolve f_parse_twig_with : fair.
  Lemma f_parse_end_name : forall what name, line (txt what) = true -> oline name -> fair (parse_end_name what name).
  Proof. intros. unfold parse_end_name. fairs. Qed.
  #[local] Hint Resolve f_parse_end_name : fair.
  Lemma f_parse_twig_macro : forall outer child, fair (parse_twig_macro outer child).
  Proof. intros. unfold parse_twig_macro. fairs. Qed.
  #[local] Hint Resolve f_parse_twig_macro : fair.
  Lemma f_parse_twig_verbatim : forall outer child, fair (parse_twig_verbatim outer child).
  Proof. intros. unfold parse_twig_verbatim. fairs. Qed.
  #[local] Hint Resolve f_parse_twig_verbatim : fair.
  Lemma f_parse_twig_sandbox : forall outer child, fair (parse_twig_sandbox outer child).
  Proof. intros. unfold parse_twig_sandbox. fairs. Qed.
  #[local] Hint Resolve f_parse_twig_sandbox : fair.
  Lemma f_parse_twig_flush : forall outer, fair (parse_twig_flush outer).
  Proof. intros. unfold parse_twig_flush. fairs. Qed.
  #[local] Hint Resolve f_parse_twig_flush : fair.
  Lemma f_parse_twig_do : forall outer, fair (parse_twig_do outer).
  Proof. intros. unfold parse_twig_do. fairs. Qed.
  #[local] Hint Resolve f_parse_twig_do : fair.
  Lemma f_parse_twig_deprecated : forall outer, fair (parse_twig_deprecated outer).
  Proof. intros. unfold parse_twig_deprecated. fairs. Qed.
  #[local] Hint Resolve f_parse_twig_deprecated : fair.
  Lemma f_parse_twig_autoescape : forall outer child, fair (parse_twig_autoescape outer child).
  Proof. intros. unfold parse_twig_autoescape. fairs. Qed.
  #[local] Hint Resolve f_parse_twig_autoescape : fair.
  Lemma f_parse_twig_apply : forall outer child, fair (parse_twig_apply outer child).
  Proof. intros. unfold parse_twig_apply. fairs. Qed.
  #[local] Hint Resolve f_parse_twig_apply : fair.
  Lemma f_parse_twig_import : forall outer, fair (parse_twig_import outer).
  Proof. intros. unfold parse_twig_import. fairs. Qed.
  #[local] Hint Resolve f_parse_twig_import : fair.
  Lemma f_parse_name_as_name_override : forall d, line (txt d) = true -> fair (parse_name_as_name_override d).
  Proof. intros. unfold parse_name_as_name_override. fairs. Qed.
  #[local] Hint Resolve f_parse_name_as_name_override : fair.
  Lemma f_parse_overrides : forall d, line (txt d) = true -> fair (parse_overrides d).
  Proof. intros. unfold parse_overrides. fairs. Qed.
  #[local] Hint Resolve f_parse_overrides : fair.
  Lemma f_parse_twig_from : forall outer, fair (parse_twig_from outer).
  Proof. intros. unfold parse_twig_from. fairs. Qed.
  #[local] Hint Resolve f_parse_twig_from : fair.
  Lemma f_parse_twig_use : forall outer, fair (parse_twig_use outer).
  Proof. intros. unfold parse_twig_use. fairs. Qed.
  #[local] Hint Resolve f_parse_twig_use : fair.
  Lemma f_parse_include_with : forall set, fair (parse_include_with set).
  Proof. intros. unfold parse_include_with. fairs. Qed.
  #[local] Hint Resolve f_parse_include_with : fair.
  Lemma f_parse_twig_embed : forall outer child, fair (parse_twig_embed outer child).
  Proof. intros. unfold parse_twig_embed. fairs. Qed.
  #[local] Hint Resolve f_parse_twig_embed : fair.
  Lemma f_parse_twig_include : forall outer, fair (parse_twig_include outer).
  Proof. intros. unfold parse_twig_include. fairs. Qed.
  #[local] Hint Resolve f_parse_twig_include : fair.
  Lemma f_parse_twig_extends : forall outer, fair (parse_twig_extends outer).
  Proof. intros. unfold parse_twig_extends. fairs. Qed.
  #[local] Hint Resolve f_parse_twig_extends : fair.
  Lemma f_parse_twig_for : forall outer child, fair (parse_twig_for outer child).
  Proof. intros. unfold parse_twig_for. fairs. Qed.
  #[local] Hint Resolve f_parse_twig_for : fair.
  Lemma f_parse_set_assignment : fair parse_set_assignment.
  Proof. intros. unfold parse_set_assignment. fairs. Qed.
  #[local] Hint Resolve f_parse_set_assignment : fair.
  Lemma f_parse_twig_set : forall outer child, fair (parse_twig_set outer child).
  Proof. intros. unfold parse_twig_set. fairs. Qed.
  #[local] Hint Resolve f_parse_twig_set : fair.
  Lemma f_parse_twig_block : forall outer child, fair (parse_twig_block outer child).
  Proof. intros. unfold parse_twig_block. fairs. Qed.
  #[local] Hint Resolve f_parse_twig_block : fair.
  Lemma f_parse_if_branches : forall child, fair (parse_if_branches child).
  Proof. intros. unfold parse_if_branches. fairs. Qed.
  #[local] Hint Resolve f_parse_if_branches : fair.
  Lemma f_parse_twig_if : forall outer child, fair (parse_twig_if outer child).
  Proof. intros. unfold parse_twig_if. fairs. Qed.
  #[local] Hint Resolve f_parse_twig_if : fair.
  Lemma f_parse_twig_trans : forall outer child, fair (parse_twig_trans outer child).
  Proof. intros. unfold parse_twig_trans. fairs. Qed.
  #[local] Hint Resolve f_parse_twig_trans : fair.
  Lemma f_parse_twig_props : forall outer, fair (parse_twig_props outer).
  Proof. intros. unfold parse_twig_props. fairs. Qed.
  #[local] Hint Resolve f_parse_twig_props : fair.
  Lemma f_parse_twig_component : forall outer child, fair (parse_twig_component outer child).
  Proof. intros. unfold parse_twig_component. fairs. Qed.
  #[local] Hint Resolve f_parse_twig_component : fair.
  Lemma f_parse_twig_sw_thumbnails : forall outer, fair (parse_twig_sw_thumbnails outer).
  Proof. intros. unfold parse_twig_sw_thumbnails. fairs. Qed.
  #[local] Hint Resolve f_parse_twig_sw_thumbnails : fair.
  Lemma f_parse_twig_sw_icon : forall outer, fair (parse_twig_sw_icon outer).
  Proof. intros. unfold parse_twig_sw_icon. fairs. Qed.
  #[local] Hint Resolve f_parse_twig_sw_icon : fair.
  Lemma f_parse_twig_sw_return : forall outer, fair (parse_twig_sw_return outer).
  Proof. intros. unfold parse_twig_sw_return. fairs. Qed.
  #[local] Hint Resolve f_parse_twig_sw_return : fair.
  Lemma f_parse_twig_sw_silent_feature_call : forall outer child, fair (parse_twig_sw_silent_feature_call outer child).
  Proof. intros. unfold parse_twig_sw_silent_feature_call. fairs. Qed.
  #[local] Hint Resolve f_parse_twig_sw_silent_feature_call : fair.
  Lemma f_parse_twig_sw_extends : forall outer, fair (parse_twig_sw_extends outer).
  Proof. intros. unfold parse_twig_sw_extends. fairs. Qed.
  #[local] Hint Resolve f_parse_twig_sw_extends : fair.
  Lemma f_parse_twig_sw_include : forall outer, fair (parse_twig_sw_include outer).
  Proof. intros. unfold parse_twig_sw_include. fairs. Qed.
  #[local] Hint Resolve f_parse_twig_sw_include : fair.
  Lemma f_parse_shopware_twig_block_statement : forall outer child, fair (parse_shopware_twig_block_statement outer child).
  Proof. intros. unfold parse_shopware_twig_block_statement. fairs. Qed.
  #[local] Hint Resolve f_parse_shopware_twig_block_statement : fair.
  Lemma f_parse_twig_block_statement : forall child, fair (parse_twig_block_statement child).
  Proof. intros. unfold parse_twig_block_statement. fairs. Qed.
  #[local] Hint Resolve f_parse_twig_block_statement : fair.
  Lemma f_parse_ludtwig_directive : forall outer closing_kinds, fair (parse_ludtwig_directive outer closing_kinds).
  Proof. intros. unfold parse_ludtwig_directive. fairs. Qed.
  #[local] Hint Resolve f_parse_ludtwig_directive : fair.
  Lemma f_parse_twig_plain_comment : forall outer, fair (parse_twig_plain_comment outer).
  Proof. intros. unfold parse_twig_plain_comment. fairs. Qed.
  #[local] Hint Resolve f_parse_twig_plain_comment : fair.
  Lemma f_parse_twig_comment_statement : fair parse_twig_comment_statement.
  Proof. intros. unfold parse_twig_comment_statement. fairs. Qed.
  #[local] Hint Resolve f_parse_twig_comment_statement : fair.
  Lemma f_parse_twig_var_statement : fair parse_twig_var_statement.
  Proof. intros. unfold parse_twig_var_statement. fairs. Qed.
  #[local] Hint Resolve f_parse_twig_var_statement : fair.
  Lemma f_parse_any_twig : forall child, fair (parse_any_twig child).
  Proof. intros. unfold parse_any_twig. fairs. Qed.
  #[local] Hint Resolve f_parse_any_twig : fair.
  Lemma f_parse_html_doctype : fair parse_html_doctype.
  Proof. intros. unfold parse_html_doctype. fairs. Qed.
  #[local] Hint Resolve f_parse_html_doctype : fair.
  Lemma f_parse_html_text : fair parse_html_text.
  Proof. intros. unfold parse_html_text. fairs. Qed.
  #[local] Hint Resolve f_parse_html_text : fair.
  Lemma f_body_raw_inner : fair body_raw_inner.
  Proof. intros. unfold body_raw_inner. fairs. Qed.
  #[local] Hint Resolve f_body_raw_inner : fair.
  Lemma f_early_end_tag : forall tag_kind tag_name met, fair (early_end_tag tag_kind tag_name met).
  Proof. intros. unfold early_end_tag. fairs. Qed.
  #[local] Hint Resolve f_early_end_tag : fair.
  Lemma f_parse_html_raw_text : forall tag_kind tag_name, fair (parse_html_raw_text tag_kind tag_name).
  Proof. intros. unfold parse_html_raw_text. fairs. Qed.
  #[local] Hint Resolve f_parse_html_raw_text : fair.
  Lemma f_parse_plain_html_comment : forall outer, fair (parse_plain_html_comment outer).
  Proof. intros. unfold parse_plain_html_comment. fairs. Qed.
  #[local] Hint Resolve f_parse_plain_html_comment : fair.
  Lemma f_parse_html_comment : fair parse_html_comment.
  Proof. intros. unfold parse_html_comment. fairs. Qed.
  #[local] Hint Resolve f_parse_html_comment : fair.
  Lemma f_html_string_child : forall inner, fair (html_string_child inner).
  Proof. intros. unfold html_string_child. fairs. Qed.
  #[local] Hint Resolve f_html_string_child : fair.
  Lemma f_inner_double_quote_parser : fair inner_double_quote_parser.
  Proof. intros. unfold inner_double_quote_parser. fairs. Qed.
  #[local] Hint Resolve f_inner_double_quote_parser : fair.
  Lemma f_inner_single_quote_parser : fair inner_single_quote_parser.
  Proof. intros. unfold inner_single_quote_parser. fairs. Qed.
  #[local] Hint Resolve f_inner_single_quote_parser : fair.
  Lemma f_inner_no_quote_parser : fair inner_no_quote_parser.
  Proof. intros. unfold inner_no_quote_parser. fairs. Qed.
  #[local] Hint Resolve f_inner_no_quote_parser : fair.
  Lemma f_quote : forall q, fair match q with   | Some TK_DOUBLE_QUOTES => inner_double_quote_parser ;; Ret tt   | Some TK_SINGLE_QUOTES => inner_single_quote_parser ;; Ret tt   | None => inner_no_quote_parser   | Some _ => fail PUnreachable   end.
  Proof. assert (A : fair (inner_double_quote_parser ;; Ret tt)) by (eapply fair_bind; [apply f_inner_double_quote_parser|intros; apply fair_ret; exact I]).
    assert (B : fair (inner_single_quote_parser ;; Ret tt)) by (eapply fair_bind; [apply f_inner_single_quote_parser|intros; apply fair_ret; exact I]).
    assert (C : fair (@fail unit PUnreachable)) by apply fair_fail.
    intros [k|]; [|apply f_inner_no_quote_parser]. destruct k;
    lazymatch goal with
    | |- fair (fail _) => exact C
    | |- fair (bind inner_double_quote_parser _) => exact A
    | |- _ => exact B
    end. Qed.
  #[local] Hint Resolve f_quote : fair.
  Lemma f_parse_html_attribute_value_string : fair parse_html_attribute_value_string.
  Proof. intros. unfold parse_html_attribute_value_string. fairs. Qed.
  #[local] Hint Resolve f_parse_html_attribute_value_string : fair.
  Lemma f_parse_html_attribute_rest : forall attribute_m, fair (parse_html_attribute_rest attribute_m).
  Proof. intros. unfold parse_html_attribute_rest. fairs. Qed.
  #[local] Hint Resolve f_parse_html_attribute_rest : fair.
  Lemma f_body_attr : fair body_attr.
  Proof. intros. unfold body_attr. fairs. Qed.
  #[local] Hint Resolve f_body_attr : fair.
  Lemma f_parse_attribute_list : fair parse_attribute_list.
  Proof. intros. unfold parse_attribute_list. fairs. Qed.
  #[local] Hint Resolve f_parse_attribute_list : fair.
  Lemma f_parse_html_ending_tag : forall tag_kind tag_name met, line tag_name = true -> fair (parse_html_ending_tag tag_kind tag_name met).
  Proof. intros. unfold parse_html_ending_tag. fairs. Qed.
  #[local] Hint Resolve f_parse_html_ending_tag : fair.
  Lemma f_parse_html_element : fair parse_html_element.
  Proof. intros. unfold parse_html_element. fairs. Qed.
  #[local] Hint Resolve f_parse_html_element : fair.
  Lemma f_parse_any_html : fair parse_any_html.
  Proof. intros. unfold parse_any_html. fairs. Qed.
  #[local] Hint Resolve f_parse_any_html : fair.
  Lemma f_body_any : fair body_any.
  Proof. intros. unfold body_any. fairs. Qed.
  #[local] Hint Resolve f_body_any : fair.
  Lemma f_body : forall c, fair (body c).
  Proof. intros. unfold body. fairs. Qed.
  #[local] Hint Resolve f_body : fair.
  Lemma f_root : fair root.
  Proof. intros. unfold root. fairs. Qed.
  #[local] Hint Resolve f_root : fair.
  Lemma f_root_body : fair root_body.
  Proof. intros. unfold root_body. fairs. Qed.
  #[local] Hint Resolve f_root_body : fair.
End Run.

Lemma all_calls_fair dbg T : (forall t, In t T -> is_trivia (tk_kind t) = false -> line (tk_text t) = true) ->
  forall n c s a s', Inv T s -> run (cstep dbg) n (body c) s = OK (a, s') -> Inv T s'.
Proof.
  intros R. induction n as [n IH] using (well_founded_induction lt_wf). intros c s a s' V E.
  refine (proj1 (f_body dbg T n R _ c n s a s' (Nat.le_refl n) V E)). intros c' m s1 a1 s2 L. apply IH. exact L.
Qed.
Lemma parse_errors_lines dbg src t errs : (forall t, In t (lex src) -> is_trivia (tk_kind t) = false -> line (tk_text t) = true) ->
  parse_src dbg src = OK (t, errs) -> forall e, In e errs -> line (err_expected e) = true.
Proof.
  intros R. unfold parse_src, parse_tokens, parser_parse. cbv zeta. destruct (run (cstep dbg) _ root _) as [[a s]|q|] eqn:E; try discriminate. cbn [rbind fst snd].
  destruct (c_open s); [|discriminate]. cbn [rbind fst snd]. destruct (sink _ _) as [t'|q|]; try discriminate. cbn [rbind fst snd]. intros H. injection H as _ <-.
  assert (V : Inv (lex src) s).
  { refine (proj1 (f_root dbg (lex src) _ R _ _ _ _ _ (Nat.le_refl _) _ E)); [intros c n s1 a1 s2 _; apply all_calls_fair; exact R|].
    split; [apply incl_refl|]. intros e []. }
  apply V.
Qed.
