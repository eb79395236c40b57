(** What is printed on stderr, message by message: crates/ludtwig/src/process.rs:44-115,
    check.rs:189-270, output.rs:16-49 and main.rs:178-206.  [Process] and [Output] model the same
    code with the contents of the messages left out. *)
From Coq Require Import NArith String Bool Arith List.
Import ListNotations.
From Verif Require Import Text Kind ParserApi Machine Red Rule Rules Check Process Output Render Diagnostics Session Main.
Local Open Scope string_scope.
Local Open Scope list_scope.

(** output.rs:8-12 ProcessingEvent with the buffer.  A buffer holds rendered messages; each shows the
    path that the file was added with (check.rs:196-199).
    Simplification: the messages stand for their rendering by codespan-reporting. *)
Inductive message_event : Set :=
| MFileProcessed | MReport (s : severity) | MOutput (p : path) (buffer : list diagnostic).

(** What is written to stderr in one go: a buffer (output.rs:46), the error of a task (main.rs:203) or
    an error of the walk (main.rs:182).  Both termcolor's BufferWriter::print and eprintln! hold the
    lock of stderr while they write. *)
Inductive chunk : Set :=
| Buffer (p : path) (messages : list diagnostic) | TaskError (p : path) (e : file_error) | WalkLine.

(** check.rs:205-215: the message with the syntax tree.  Simplification: the tree is in the notes,
    which [diagnostic] leaves out. *)
Definition tree_diagnostic : diagnostic :=
  mkDiagnostic SInfo (txt "SyntaxTree") (txt "visualization of the syntax tree (inspect cli option is active)") [].

(** check.rs:207 and 214, 219 and 227, 240 and 268: a report is sent and a message added to the buffer *)
Definition emit (s : severity) (d : diagnostic) (acc : list message_event * list diagnostic) : list message_event * list diagnostic :=
  (fst acc ++ [MReport s], snd acc ++ [d]).

(** check.rs:217-228 *)
Fixpoint emit_errors (es : list perror) (acc : list message_event * list diagnostic) : out (list message_event * list diagnostic) :=
  match es with
  | [] => Done acc
  | e :: es =>
    match error_diagnostic e with
    | Done d => emit_errors es (emit SError d acc)
    | Crashed => Crashed
    end
  end.

(** check.rs:231-269 *)
Definition emit_results (rs : list result) (acc : list message_event * list diagnostic) : list message_event * list diagnostic :=
  fold_left (fun acc r => emit (rs_severity r) (result_diagnostic r) acc) rs acc.

(** check.rs:189-270 produce_diagnostics: the events that are sent and the buffer *)
Definition produce_messages (inspect : bool) (fc : file_context) (rs : list result) : out (list message_event * list diagnostic) :=
  match emit_errors (fc_errors fc) (if inspect then emit SInfo tree_diagnostic ([], []) else ([], [])) with
  | Done acc => Done (emit_results rs acc)
  | Crashed => Crashed
  end.

Section Shown.
  Context (dbg : bool) (sort : list (text * suggestion) -> out (list (text * suggestion))) (cf : config).

  (** process.rs:108-114 *)
  Definition output_messages (p : path) (inspect : bool) (fc : file_context) (rs : list result)
    : list message_event * outcome unit :=
    match produce_messages inspect fc rs with
    | Done (es, buffer) => (es ++ [MOutput p buffer], Ok tt)
    | Crashed => ([], Crash)
    end.

  (** process.rs:58-115 run_analysis: the events; what it does to the file is in [Process.run_analysis] *)
  Definition analysis_messages (p : path) (fix_opt inspect write_ok : bool) (definitions : list rule) (content : text)
    : list message_event * outcome unit :=
    match parse_file dbg content with
    | Crashed => ([], Crash)
    | Done (t, errs) =>
      let rules := get_file_active_rules (root_elem t) definitions in
      let fc := mkFile content t errs rules in
      match run_rules cf rules t with
      | Crashed => ([], Crash)
      | Done rs =>
        if fix_opt then
          match iteratively_apply_suggestions dbg sort cf fc rs with
          | Crash => ([], Crash)
          | Err e => ([], Err e)
          | Ok (fc', rs', dirty, _) =>
            if dirty then
              if write_ok then output_messages p inspect fc' rs' else ([], Err FileWrite)
            else output_messages p inspect fc' rs'
          end
        else output_messages p inspect fc rs
      end
    end.

  (** process.rs:44-56 process_file *)
  Definition process_messages (p : path) (fix_opt inspect write_ok : bool) (definitions : list rule) (read : option text)
    : list message_event * outcome unit :=
    match read with
    | None => ([MFileProcessed], Err FileRead)
    | Some content =>
      let (es, o) := analysis_messages p fix_opt inspect write_ok definitions content in (MFileProcessed :: es, o)
    end.

  (** main.rs:196-206: the events of the task of a file, what it prints itself, and how it ends *)
  Definition task_messages (p : path) (fix_opt inspect write_ok : bool) (definitions : list rule) (read : option text)
    : list message_event * list chunk * outcome unit :=
    match process_messages p fix_opt inspect write_ok definitions read with
    | (es, Err e) => (es ++ [MReport SError], [TaskError p e], Err e)
    | (es, o) => (es, [], o)
    end.
End Shown.

(** output.rs:8-12: the event without the contents of the buffer *)
Definition forget (e : message_event) : event :=
  match e with MFileProcessed => FileProcessed | MReport s => Report s | MOutput _ _ => OutputStderrMessage end.

(** output.rs:45-47: what the output thread prints for an event *)
Definition printed (e : message_event) : list chunk :=
  match e with MOutput p buffer => [Buffer p buffer] | _ => [] end.

(** output.rs:16-70: the totals in the summary and what is printed before it *)
Definition handle_messages (es : list message_event) : totals * list chunk :=
  (fst (handle_processing_output (map forget es)), flat_map printed es).

(** main.rs:181-188: what the walk sends and prints itself *)
Definition walk_messages (es : list walked) : list message_event * list chunk :=
  (flat_map (fun e => match e with WalkFailed => [MReport SError] | _ => [] end) es,
   flat_map (fun e => match e with WalkFailed => [WalkLine] | _ => [] end) es).

(** Sequences of any number of threads, merged in any way: std::sync::mpsc for the events,
    the lock of stderr for the chunks. *)
Inductive merged {A : Type} : list (list A) -> list A -> Prop :=
| mg_done xss : Forall (fun l => l = []) xss -> merged xss []
| mg_step l x xs r ys : merged (l ++ xs :: r) ys -> merged (l ++ (x :: xs) :: r) (x :: ys).

Section Run.
  Context (dbg : bool) (sort : list (text * suggestion) -> out (list (text * suggestion))) (cf : config).

  (** main.rs:131-142 and 174-211: a run with the rules [rules] over the files [f] and the entries [es] of
      the walk may show [totals] in the summary and write [stderr] before it.  Every task holds a sender
      until it has printed its error, so that the summary is the last thing printed.
      Simplifications: a task reads the file as it was at the start, which is so if no path is found
      twice; the chunks may come in any order, even if the receiver cannot have printed a buffer
      that early. *)
  Definition run_shows (o : options) (rules : list rule) (write_ok : path -> bool) (f : files) (es : list walked)
      (summary : totals) (stderr : list chunk) : Prop :=
    let tasks := map (fun p => task_messages dbg sort cf p (op_fix o) (op_inspect o) (write_ok p) rules (f p)) (spawned es) in
    exists received,
      merged (fst (walk_messages es) :: map (fun t => fst (fst t)) tasks) received /\
      summary = fst (handle_messages received) /\
      merged (snd (handle_messages received) :: snd (walk_messages es) :: map (fun t => snd (fst t)) tasks) stderr.
End Run.

(** error.rs:21-52: the Display of the error of a task, printed by main.rs:203 behind [Error: ];
    [io] is the Display of the operating system's error. *)
Definition task_error_text (io : text) (p : path) (e : file_error) : text :=
  match e with
  | FileRead => txt "file " ++ p ++ txt " can't be read: " ++ io
  | FileWrite => txt "file " ++ p ++ txt " can't be written: " ++ io
  | MaxApplyIteration => txt "max suggestion apply iteration encountered. This may be caused by fighting rules (programmer error) or too many conflicting suggestions at once"
  | OverlappingSuggestion rule => txt "Suggestion collision inside the same rule, check rule " ++ rule ++ txt " or write bug report - this is a programmer error"
  end.
