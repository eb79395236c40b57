(** A whole run: the tasks of all files, their steps in any order, and the file system.
    crates/ludtwig/src/main.rs:145-212 and process.rs:44-115. *)
From Coq Require Import NArith Bool Arith List.
Import ListNotations.
From Verif Require Import Text Red Rule Rules Check Process.
Local Open Scope list_scope.
Local Notation length := List.length (only parsing).

(** Paths are texts; the file system gives the text of a file, or nothing if it cannot be read as
    UTF-8 text.  Simplification: no links (two paths are two files) and no other programs. *)
Definition path : Set := text.
(** the file system (std::fs) *)
Definition files : Set := path -> option text.
(** std::fs::write when complete, process.rs:87 *)
Definition set_file (f : files) (p : path) (c : text) : files :=
  fun q => if text_eqb p q then Some c else f q.

(** How far the task of a file has come: not begun, begun, effects that remain, or inside
    std::fs::write with the first [k] characters of [new] already in the file. *)
Inductive work : Set :=
| Waiting
| Begun
| Doing (todo : list effect)
| Writing (new : text) (k : nat) (todo : list effect).

Section Session.
  Context (dbg : bool) (sort : list (text * suggestion) -> out (list (text * suggestion))) (cf : config).
  Context (fix_opt inspect : bool) (definitions : list rule).
  (** whether writing a file succeeds *)
  Context (write_ok : path -> bool).

  (** The effects of the task of [p] if the file is found with content [read] (main.rs:194-206,
      process.rs:44-115). *)
  Definition task_effects (p : path) (read : option text) : list effect :=
    fst (file_task dbg sort cf fix_opt inspect (write_ok p) definitions read).

  (** One step of one task: [act f p w w' f' es] goes from [w] to [w'], changes the files from [f]
      to [f'] and sends [es].
      Simplifications: fs::read_to_string is one step; fs::write (process.rs:86) is opening with
      truncation, then one character at a time; a write that fails may stop after any of them.
      Everything between two effects is a part of the next step. *)
  Inductive act (f : files) (p : path) : work -> work -> files -> list event -> Prop :=
  | a_begin : act f p Waiting Begun f [FileProcessed]                          (* process.rs:46 *)
  | a_read : act f p Begun (Doing (skipn 2 (task_effects p (f p)))) f []       (* process.rs:48 *)
  | a_send e l : act f p (Doing (Send e :: l)) (Doing l) f [e]                 (* main.rs:82-86 *)
  | a_open c l : act f p (Doing (WriteFile c :: l)) (Writing c 0 l) (set_file f p []) []
  | a_put c k l : k < length c ->
      act f p (Writing c k l) (Writing c (S k) l) (set_file f p (firstn (S k) c)) []
  | a_close c l : write_ok p = true -> act f p (Writing c (length c) l) (Doing l) f []
  | a_not_opened c l : write_ok p = false -> act f p (Doing (WriteFile c :: l)) (Doing l) f []
  | a_failed c k l : write_ok p = false -> act f p (Writing c k l) (Doing l) f [].

  (** The state of a run: files, tasks, and the events that have arrived at the output thread. *)
  Record world : Type := mkWorld
    { w_files : files; w_tasks : list (path * work); w_events : list event }.

  (** Any task may do the next step (main.rs:175-211: the thread pool decides).
      Simplification: the number of threads is not limited. *)
  Inductive step : world -> world -> Prop :=
  | step_task f l p w r es w' f' new :
      act f p w w' f' new ->
      step (mkWorld f (l ++ (p, w) :: r) es) (mkWorld f' (l ++ (p, w') :: r) (es ++ new)).

  (** main.rs:174-211: any number of steps *)
  Inductive steps : world -> world -> Prop :=
  | steps_none w : steps w w
  | steps_more w w1 w2 : steps w w1 -> step w1 w2 -> steps w w2.

  (** The run on the files of a list of paths (one entry of the directory walk each,
      main.rs:178-193; the same path may be found twice). *)
  Definition start (f : files) (paths : list path) : world :=
    mkWorld f (map (fun p => (p, Waiting)) paths) [].

  (** All tasks have come to their end. *)
  Definition finished (w : world) : Prop := Forall (fun t => snd t = Doing []) (w_tasks w).
End Session.
