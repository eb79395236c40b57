(** The whole program: crates/ludtwig/src/main.rs:94-212.  Configuration, choice of the rules, the
    run over the files that the directory walk finds, and the exit code. *)
From Coq Require Import NArith ZArith Bool Arith List.
Import ListNotations.
From Verif Require Import Text Red Rule Rules Check Process Output PropOutput Session ConfigLoad.
Local Open Scope list_scope.
Local Notation length := List.length (only parsing).

(** main.rs:31-64 Opts, without the paths: what the walk finds for them is an input of its own,
    and so is what is found at the configuration path. *)
Record options : Set := mkOptions { op_fix : bool; op_create : bool; op_verbose : bool; op_inspect : bool }.

(** main.rs:178-193: what the walk hands over: a file, a directory, or an error (a path that does
    not exist, a directory that cannot be read).
    Simplification: the crate ignore (types, .gitignore and .ludtwig-ignore files, the order of the
    entries) is not modelled, the entries are an input. *)
Inductive walked : Set := WalkedFile (p : path) | WalkedDirectory (p : path) | WalkFailed.

(** main.rs:191-208: a task is spawned for every file *)
Definition spawned (es : list walked) : list path :=
  flat_map (fun e => match e with WalkedFile p => [p] | _ => [] end) es.
(** main.rs:181-188: the reports that the walk itself sends *)
Definition walk_reports (es : list walked) : list event :=
  flat_map (fun e => match e with WalkFailed => [Report SError] | _ => [] end) es.

Section Main.
  Context (dbg : bool) (sort : list (text * suggestion) -> out (list (text * suggestion))).
  Context (toml : text -> option dict) (env_value : text -> value) (by_number : Z -> option nat) (default_raw : text).
  Context (program_version : text) (write_ok : path -> bool).
  (** rules.rs:52-77 RULE_DEFINITIONS, or any other table *)
  Context (definitions : list rule).

  (** rayon::scope (main.rs:175) panics if one of its tasks has panicked, and so does main.
      Simplification: a task reads the file as it was at the start, which is so if no path is
      found twice. *)
  Definition task_panics (cf : config) (o : options) (rules : list rule) (f : files) (p : path) : Prop :=
    snd (file_task dbg sort cf (op_fix o) (op_inspect o) (write_ok p) rules (f p)) = Crash.

  (** [program o l env ignore_ok es f f' code]: with the options [o], the configuration path [l] and the
      environment [env], a ./.ludtwig-ignore that can be used or not, and the walk finding [es], the
      program may turn the files [f] into [f'] and end with exit code [code]. *)
  Inductive program (o : options) (l : location) (env : list (text * text)) (ignore_ok : bool)
      (es : list walked) (f : files) : files -> nat -> Prop :=
  | p_config code :                                  (* main.rs:98, config.rs:164-235 *)
      outcome (handle_config toml env_value by_number default_raw program_version (op_create o) (op_verbose o) l env) = inl code ->
      program o l env ignore_ok es f f code
  | p_rules c n :                                    (* main.rs:112-118 *)
      outcome (handle_config toml env_value by_number default_raw program_version (op_create o) (op_verbose o) l env) = inr c ->
      get_config_active_rules definitions (active_rules (ld_config c)) = RuleNotFound n ->
      program o l env ignore_ok es f f 1
  | p_ignore c rules :                               (* main.rs:164-171 *)
      outcome (handle_config toml env_value by_number default_raw program_version (op_create o) (op_verbose o) l env) = inr c ->
      get_config_active_rules definitions (active_rules (ld_config c)) = Selected rules ->
      ignore_ok = false ->
      program o l env ignore_ok es f f 1
  | p_panic c rules w :                              (* main.rs:175, the exit code of a panic is 101 *)
      outcome (handle_config toml env_value by_number default_raw program_version (op_create o) (op_verbose o) l env) = inr c ->
      get_config_active_rules definitions (active_rules (ld_config c)) = Selected rules ->
      ignore_ok = true ->
      steps dbg sort (ld_config c) (op_fix o) (op_inspect o) rules write_ok (start f (spawned es)) w ->
      finished w ->
      (exists p, In p (spawned es) /\ task_panics (ld_config c) o rules f p) ->
      program o l env ignore_ok es f (w_files w) 101
  | p_run c rules w received :                       (* main.rs:131-142 *)
      outcome (handle_config toml env_value by_number default_raw program_version (op_create o) (op_verbose o) l env) = inr c ->
      get_config_active_rules definitions (active_rules (ld_config c)) = Selected rules ->
      ignore_ok = true ->
      steps dbg sort (ld_config c) (op_fix o) (op_inspect o) rules write_ok (start f (spawned es)) w ->
      finished w ->
      (forall p, In p (spawned es) -> ~ task_panics (ld_config c) o rules f p) ->
      interleaves [w_events w; walk_reports es] received ->
      program o l env ignore_ok es f (w_files w) (snd (handle_processing_output received)).
End Main.
