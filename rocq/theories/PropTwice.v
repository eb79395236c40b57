(** C27 without its condition: --fix twice. *)
From Coq Require Import NArith Arith String Bool List.
Import ListNotations.
From Verif Require Import Text Machine Red Rule Rules Check Process DefaultConfig.
From Verif Require LexerProofs.
Local Open Scope list_scope.

(** What is written, one text at most. *)
Definition written_text (effects : list effect) : option text :=
  match find (fun e => match e with WriteFile _ => true | _ => false end) effects with Some (WriteFile c) => Some c | _ => None end.

(** A template without syntax errors. The first --fix breaks the line behind the < sign, which then
    opens a tag (see C75), and the directive is lost in it. So the second --fix also uses the rule
    that the directive names. *)
Definition twice_0 : text := txt "1 < {% block b %}2{% endblock %}{# ludtwig-ignore-file indentation #}".
Definition twice_1 : text := txt "1 <" ++ [10%N] ++ txt " {% block b %}2{% endblock %}" ++ [10%N; 10%N] ++ txt "{# ludtwig-ignore-file indentation #}".
Definition twice_2 : text := txt "1 <" ++ [10%N] ++ txt "{% block b %}2{% endblock %}" ++ [10%N; 10%N] ++ txt "{# ludtwig-ignore-file indentation #}".

Local Definition fixes (a b : text) : bool :=
  match file_task true insertion_sort default_config true false true RULE_DEFINITIONS (Some a) with
  | (effects, Ok tt) => match written_text effects with Some c => text_eqb c b | None => false end
  | _ => false
  end.
Local Lemma fixes_spec a b : fixes a b = true ->
  exists effects, file_task true insertion_sort default_config true false true RULE_DEFINITIONS (Some a) = (effects, Ok tt) /\ In (WriteFile b) effects.
Proof.
  unfold fixes. destruct (file_task _ _ _ _ _ _ _ _) as [effects [[]|e|]]; [|discriminate..]. intros H. exists effects. split; [reflexivity|].
  unfold written_text in H. destruct (find _ effects) as [e|] eqn:F; [|discriminate H]. destruct e as [e| |c]; [discriminate H..|].
  apply LexerProofs.text_eqb_eq in H. subst c. apply find_some in F. exact (proj1 F).
Qed.

(** That a second --fix changes nothing is false if nothing is said about directives for the
    whole file (C27_fix_is_idempotent). *)
Theorem C27_second_fix_changes_nothing_refuted :
  ~ (forall dbg sort cf inspect write_ok definitions content effects o c,
       file_task dbg sort cf true inspect write_ok definitions (Some content) = (effects, o) -> In (WriteFile c) effects ->
       exists effects2, file_task dbg sort cf true inspect write_ok definitions (Some c) = (effects2, Ok tt) /\ forall c2, ~ In (WriteFile c2) effects2).
Proof.
  intros C.
  assert (A : fixes twice_0 twice_1 = true) by (vm_compute; reflexivity). assert (B : fixes twice_1 twice_2 = true) by (vm_compute; reflexivity).
  apply fixes_spec in A, B. destruct A as (e1 & T1 & W1), B as (e2 & T2 & W2).
  destruct (C _ _ _ _ _ _ _ _ _ _ T1 W1) as (e & T & N). rewrite T2 in T. apply (f_equal fst) in T. cbn [fst] in T. subst e. exact (N _ W2).
Qed.
(** The first text has no syntax error. *)
Example C27_twice_case : match parse_file true twice_0 with Done (_, errs) => errs = [] | Crashed => False end.
Proof. vm_compute. reflexivity. Qed.

Print Assumptions C27_second_fix_changes_nothing_refuted.
