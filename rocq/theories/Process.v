(** Processing one file and fixing it: crates/ludtwig/src/process.rs. *)
From Coq Require Import NArith Bool Arith String List.
Import ListNotations.
From Verif Require Import Text Kind ParserApi Machine TreeSpec Red Typed Rule Rules Check.
Local Open Scope list_scope.

(** error.rs:6-19; paths and io errors are left out *)
Inductive file_error : Set :=
| FileRead | FileWrite | MaxApplyIteration | OverlappingSuggestion (rule : text).

(** Result<_, FileProcessingError> of code that may also panic *)
Inductive outcome (A : Type) : Type := Ok (a : A) | Err (e : file_error) | Crash.
Arguments Ok {A} a.
Arguments Err {A} e.
Arguments Crash {A}.

(** process.rs:19-35 FileContext; the configuration is passed separately *)
Record file_context : Type := mkFile
  { fc_source : text; fc_tree : tree; fc_errors : list perror; fc_rules : list rule }.

(** text-size 1.1 TextRange::ordering: Less if the first range ends before the second starts,
    Greater in the opposite case, Equal if they overlap.  (Two empty ranges at the same place
    are Less in both directions.) *)
Definition ordering (a b : suggestion) : comparison :=
  if Nat.leb (sg_end a) (sg_start b) then Lt
  else if Nat.leb (sg_end b) (sg_start a) then Gt
  else Eq.

(** process.rs:137-149: compare neighbours; the rules to leave out, or the rule that collides
    with itself *)
Fixpoint overlapping_rules (l : list (text * suggestion)) : text + list text :=
  match l with
  | (ra, a) :: r =>
    match r with
    | (rb, b) :: _ =>
      match ordering a b with
      | Eq =>
        if text_eqb ra rb then inl ra
        else match overlapping_rules r with inl x => inl x | inr names => inr (rb :: names) end
      | _ => overlapping_rules r
      end
    | [] => inr []
    end
  | [] => inr []
  end.

(** String::replace_range: panics unless start <= end <= len and both are char boundaries *)
Definition replace_range (s e : nat) (new t : text) : out text :=
  if Nat.leb s e then
    match bsplit s t, bsplit e t with
    | Some (before, _), Some (_, after) => Done (before ++ new ++ after)
    | _, _ => Crashed
    end
  else Crashed.

(** process.rs:184-196 apply_suggestions_to_text: from the last suggestion to the first *)
Fixpoint apply_suggestions (l : list suggestion) (t : text) : out text :=
  match l with
  | [] => Done t
  | s :: r =>
    match apply_suggestions r t with
    | Crashed => Crashed
    | Done t' => replace_range (sg_start s) (sg_end s) (sg_text s) t'
    end
  end.

(** process.rs:132-159 for the sorted suggestions: the ones that are applied *)
Definition select_suggestions (sorted : list (text * suggestion)) : file_error + list suggestion :=
  match overlapping_rules sorted with
  | inl r => inl (OverlappingSuggestion r)
  | inr names => inr (map snd (filter (fun p => negb (mem_text (fst p) names)) sorted))
  end.

(** [sort_by] of the standard library for at most 20 elements (insertion_sort_shift_left):
    the sorted part, last element first *)
Fixpoint insert_tail (x : text * suggestion) (sorted_rev : list (text * suggestion))
  : list (text * suggestion) :=
  match sorted_rev with
  | [] => [x]
  | y :: r =>
    match ordering (snd x) (snd y) with
    | Lt => y :: insert_tail x r
    | _ => x :: sorted_rev
    end
  end.
(** process.rs:134: one sort with the contract of slice::sort_by (std) *)
Definition insertion_sort (l : list (text * suggestion)) : out (list (text * suggestion)) :=
  Done (rev (fold_left (fun acc x => insert_tail x acc) l [])).

(** What the code asks of the outside world: events sent to the output thread (output.rs:8-12),
    reading the file and writing it. *)
Inductive event : Set := FileProcessed | Report (s : severity) | OutputStderrMessage.
(** process.rs:44-115: what a task does outside *)
Inductive effect : Set := Send (e : event) | ReadFile | WriteFile (content : text).

Section Process.
  (** [dbg]: debug assertions on; [sort]: the standard library's [sort_by] with [ordering]; that
      order is not total, for longer lists the library may return any permutation or panic. *)
  Context (dbg : bool) (sort : list (text * suggestion) -> out (list (text * suggestion))).
  Context (cf : config).

  (** ludtwig_parser::parse and SyntaxNode::new_root; a panic of the parser is a crash *)
  Definition parse_file (src : text) : out (tree * list perror) :=
    match parse_src dbg src with OK r => Done r | _ => Crashed end.

  (** process.rs:126-178: [n] rounds are left, [i] have been done *)
  Fixpoint fix_loop (n i : nat) (fc : file_context) (rs : list result) (dirty : bool)
    : outcome (file_context * list result * bool * nat) :=
    match n with
    | 0 => Err MaxApplyIteration
    | S n' =>
      match rule_suggestions rs with
      | [] => Ok (fc, rs, dirty, i)
      | sugs =>
        match sort sugs with
        | Crashed => Crash
        | Done sorted =>
          match select_suggestions sorted with
          | inl e => Err e
          | inr chosen =>
            match apply_suggestions chosen (fc_source fc) with
            | Crashed => Crash
            | Done src =>
              match parse_file src with
              | Crashed => Crash
              | Done (t, errs) =>
                match run_rules cf (fc_rules fc) t with
                | Crashed => Crash
                | Done rs' => fix_loop n' (S i) (mkFile src t errs (fc_rules fc)) rs' true
                end
              end
            end
          end
        end
      end
    end.

  (** process.rs:117-182 iteratively_apply_suggestions *)
  Definition iteratively_apply_suggestions (fc : file_context) (rs : list result)
    : outcome (file_context * list result * bool * nat) := fix_loop 10 0 fc rs false.

  (** check.rs:189-270 produce_diagnostics: the events it sends; the rendering of the messages
      is left out *)
  Definition produce_diagnostics (inspect : bool) (fc : file_context) (rs : list result) : list effect :=
    (if inspect then [Send (Report SInfo)] else [])
    ++ map (fun _ => Send (Report SError)) (fc_errors fc)
    ++ map (fun r => Send (Report (rs_severity r))) rs.

  (** process.rs:58-115 run_analysis: effects in order and the outcome; [write_ok] is the outcome
      of fs::write, [definitions] the configured rules; stdout is left out *)
  Definition run_analysis (fix_opt inspect write_ok : bool) (definitions : list rule) (content : text)
    : list effect * outcome unit :=
    match parse_file content with
    | Crashed => ([], Crash)
    | Done (t, errs) =>
      let rules := get_file_active_rules (root_elem t) definitions in
      let fc := mkFile content t errs rules in
      match run_rules cf rules t with
      | Crashed => ([], Crash)
      | Done rs =>
        let finish fc rs := produce_diagnostics inspect fc rs ++ [Send OutputStderrMessage] in
        if fix_opt then
          match iteratively_apply_suggestions fc rs with
          | Crash => ([], Crash)
          | Err e => ([], Err e)
          | Ok (fc', rs', dirty, _) =>
            if dirty then
              if write_ok then (WriteFile (fc_source fc') :: finish fc' rs', Ok tt)
              else ([WriteFile (fc_source fc')], Err FileWrite)
            else (finish fc' rs', Ok tt)
          end
        else (finish fc rs, Ok tt)
      end
    end.

  (** process.rs:44-56 process_file; [read] is the outcome of fs::read_to_string, [None] if the
      file cannot be read or is not UTF-8 *)
  Definition process_file (fix_opt inspect write_ok : bool) (definitions : list rule) (read : option text)
    : list effect * outcome unit :=
    match read with
    | None => ([Send FileProcessed; ReadFile], Err FileRead)
    | Some content =>
      let (effects, o) := run_analysis fix_opt inspect write_ok definitions content in
      ([Send FileProcessed; ReadFile] ++ effects, o)
    end.

  (** main.rs:194-206: the task of one file; an error is reported *)
  Definition file_task (fix_opt inspect write_ok : bool) (definitions : list rule) (read : option text)
    : list effect * outcome unit :=
    match process_file fix_opt inspect write_ok definitions read with
    | (effects, Err e) => (effects ++ [Send (Report SError)], Err e)
    | r => r
    end.
End Process.

(** std::fs::write: the file is truncated when opened and then filled from the front.  The
    contents a crash during the call can leave behind (cut at characters instead of bytes). *)
Definition write_states (old new : text) : list text :=
  old :: map (fun n => firstn n new) (seq 0 (S (List.length new))).
