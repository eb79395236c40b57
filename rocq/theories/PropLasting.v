(** C91: exit code 0 lasts. *)
From Coq Require Import NArith ZArith Arith Bool String List.
Import ListNotations.
From Verif Require Import Text Machine Red Typed Rule Rules Check Process Output PropOutput Session ConfigLoad Main PropMain.
From Verif Require PropConfig PropSession DefaultConfig.
Local Open Scope list_scope.

(** The texts switch off the same rules for the whole file (top-level directives, C18). *)
Definition same_directives (dbg : bool) (t0 t : text) : Prop :=
  forall tree0 errs0 tree errs rules, parse_src dbg t0 = OK (tree0, errs0) -> parse_src dbg t = OK (tree, errs) ->
    get_file_active_rules (root_elem tree) rules = get_file_active_rules (root_elem tree0) rules.
Lemma same_text dbg t : same_directives dbg t t.
Proof. intros tree0 errs0 tree errs rules A B. rewrite A in B. injection B as <- _. reflexivity. Qed.

Section Lasting.
  Context (dbg : bool).
  Context (toml : text -> option dict) (env_value : text -> value) (by_number : Z -> option nat) (default_raw : text) (version : text).
  (** Two runs may differ in how suggestions are sorted and in whether files can be written. *)
  Notation program sort write_ok := (program dbg sort toml env_value by_number default_raw version write_ok RULE_DEFINITIONS).

  (** A run over at least one file has ended with exit code 0, and it has kept the directives of
      the files it has changed. Then every later run with the same configuration over the same
      files or some of them, checking or fixing, ends with exit code 0 and changes no file. *)
  Theorem C91_exit_code_zero_lasts : forall sort write_ok o l env ignore_ok es f f' sort2 write_ok2 o2 es2 f'' code,
    op_create o = false -> NoDup (spawned es) -> spawned es <> [] ->
    program sort write_ok o l env ignore_ok es f f' 0 ->
    (forall p t0 t, In (WalkedFile p) es -> f p = Some t0 -> f' p = Some t -> same_directives dbg t0 t) ->
    op_create o2 = false -> NoDup (spawned es2) -> incl es2 es ->
    program sort2 write_ok2 o2 l env true es2 f' f'' code ->
    code = 0 /\ forall p, f'' p = f' p.
  Proof.
    intros sort write_ok o l env ignore_ok es f f' sort2 write_ok2 o2 es2 f'' code NC ND NE P D NC2 ND2 I2 P2.
    destruct (C71_exit_code_zero_means_in_order dbg sort toml env_value by_number default_raw version write_ok o l env ignore_ok es f f' NC ND NE P)
      as (c & rules & HC & HS & NW & IO).
    refine (C71_templates_in_order_pass dbg sort2 toml env_value by_number default_raw version write_ok2 o2 l env es2 f' f'' code c rules NC2 ND2 HC HS _ _ P2).
    - intros W. apply NW, I2, W.
    - intros p Hp. apply I2 in Hp. destruct (IO p Hp) as (t0 & t & E0 & E & (tree0 & errs0 & tree & A & B & R) & _).
      exists t. split; [exact E|]. exists tree, [], tree. split; [exact B|]. split; [exact B|].
      rewrite (D p t0 t Hp E0 E tree0 errs0 tree [] rules A B). exact R.
  Qed.

  (** In particular after a run that has changed nothing, as a run without --fix does. *)
  Theorem C91_passed_checks_last : forall sort write_ok o l env ignore_ok es f f' sort2 write_ok2 o2 es2 f'' code,
    op_create o = false -> NoDup (spawned es) -> spawned es <> [] ->
    program sort write_ok o l env ignore_ok es f f' 0 -> op_fix o = false \/ (forall p, f' p = f p) ->
    op_create o2 = false -> NoDup (spawned es2) -> incl es2 es ->
    program sort2 write_ok2 o2 l env true es2 f' f'' code ->
    code = 0 /\ forall p, f'' p = f p.
  Proof.
    intros sort write_ok o l env ignore_ok es f f' sort2 write_ok2 o2 es2 f'' code NC ND NE P U NC2 ND2 I2 P2.
    assert (E : forall p, f' p = f p).
    { destruct U as [U|U]; [|exact U].
      exact (proj2 (proj2 (C71_only_found_files_change dbg sort toml env_value by_number default_raw version write_ok o l env ignore_ok es f f' 0 ND P)) U). }
    destruct (C91_exit_code_zero_lasts sort write_ok o l env ignore_ok es f f' sort2 write_ok2 o2 es2 f'' code NC ND NE P) as [A B]; try assumption.
    - intros p t0 t _ F0 F. rewrite E, F0 in F. injection F as <-. apply same_text.
    - split; [exact A|]. intros p. rewrite B. apply E.
  Qed.
End Lasting.

(** No directive for the whole file in it. *)
Definition plain_b (dbg : bool) (t : text) : bool :=
  match parse_src dbg t with
  | OK (tree, _) => match support_children Kind.LUDTWIG_DIRECTIVE_FILE_IGNORE (root_elem tree) with [] => true | _ => false end
  | _ => false
  end.
Lemma plain_same dbg t0 t : plain_b dbg t0 = true -> plain_b dbg t = true -> same_directives dbg t0 t.
Proof.
  unfold plain_b, same_directives. intros A B tree0 errs0 tree errs rules P0 P. rewrite P0 in A. rewrite P in B. unfold get_file_active_rules.
  destruct (support_children _ (root_elem tree0)); [|discriminate A]. destruct (support_children _ (root_elem tree)); [|discriminate B]. reflexivity.
Qed.

(** A run with --fix that changes one of two files and ends with exit code 0 (C71_case_fix); a check
    of these files, and a second --fix, in any order of the threads, end with 0 and change nothing. *)
Example C91_case : exists f', C71_program (mkOptions true false true false) C71_place [] true C71_found PropSession.two_texts f' 0 /\
  f' PropSession.pa <> PropSession.two_texts PropSession.pa /\
  forall fix_opt f'' code, C71_program (mkOptions fix_opt false false false) C71_place [] true C71_found f' f'' code -> code = 0 /\ forall p, f'' p = f' p.
Proof.
  destruct C71_case_fix as (f' & P & A & B & C & ND). exists f'. split; [exact P|]. split; [rewrite A, C; intros E; vm_compute in E; discriminate E|].
  intros fix_opt f'' code P2.
  eapply C91_exit_code_zero_lasts; [| | |exact P| | | | |exact P2]; [reflexivity|exact ND|discriminate| |reflexivity|exact ND|apply incl_refl].
  intros p t0 t [E|[E|[E|[]]]] F0 F; [|discriminate E|].
  - injection E as <-. rewrite A in F. rewrite C in F0. injection F0 as <-. injection F as <-. apply plain_same; vm_compute; reflexivity.
  - injection E as <-. rewrite B, F0 in F. injection F as <-. apply same_text.
Qed.

Print Assumptions C91_exit_code_zero_lasts.
Print Assumptions C91_passed_checks_last.
