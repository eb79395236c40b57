(** Counting reports and the exit code: crates/ludtwig/src/output.rs and main.rs. *)
From Coq Require Import Bool Arith List.
Import ListNotations.
From Verif Require Import Text Rule Rules Check Process.

(** output.rs:17-21 *)
Record totals : Set := mkTotals
  { n_files : nat; n_errors : nat; n_warnings : nat; n_helps : nat; n_infos : nat }.

(** output.rs:27-48 for one event *)
Definition count_event (c : totals) (e : event) : totals :=
  match e with
  | FileProcessed => mkTotals (S (n_files c)) (n_errors c) (n_warnings c) (n_helps c) (n_infos c)
  | Report SError => mkTotals (n_files c) (S (n_errors c)) (n_warnings c) (n_helps c) (n_infos c)
  | Report SWarning => mkTotals (n_files c) (n_errors c) (S (n_warnings c)) (n_helps c) (n_infos c)
  | Report SHelp => mkTotals (n_files c) (n_errors c) (n_warnings c) (S (n_helps c)) (n_infos c)
  | Report SInfo => mkTotals (n_files c) (n_errors c) (n_warnings c) (n_helps c) (S (n_infos c))
  | OutputStderrMessage => c
  end.

(** output.rs:26-49 *)
Definition count_events (es : list event) : totals := fold_left count_event es (mkTotals 0 0 0 0 0).

(** output.rs:63-69 *)
Definition exit_code (c : totals) : nat :=
  if Nat.ltb 0 (n_files c)
     && (Nat.ltb 0 (n_errors c) || Nat.ltb 0 (n_warnings c) || Nat.ltb 0 (n_helps c))
  then 1 else 0.

(** output.rs:16-70 handle_processing_output on the received events: printed totals and exit
    code (the total over all severities is their sum) *)
Definition handle_processing_output (es : list event) : totals * nat :=
  (count_events es, exit_code (count_events es)).

(** main.rs:106-119 and 131-142: the exit code of a run that received the events [es] *)
Definition app (definitions : list rule) (cf : config) (es : list event) : nat :=
  match get_config_active_rules definitions (active_rules cf) with
  | RuleNotFound _ => 1
  | Selected _ => snd (handle_processing_output es)
  end.

(** main.rs:178-208: the events of one entry of the directory walk: a walk error, or a file with
    the effects of its task *)
Inductive entry : Set := WalkError | FileEntry (effects : list effect).
(** main.rs:196-206: the events a task has sent *)
Definition sent (effects : list effect) : list event :=
  flat_map (fun e => match e with Send x => [x] | _ => [] end) effects.
(** main.rs:178-208 *)
Definition entry_events (e : entry) : list event :=
  match e with WalkError => [Report SError] | FileEntry effects => sent effects end.
