(** What a task says on stdout: crates/ludtwig/src/process.rs:96-100. *)
From Coq Require Import NArith String Bool Arith List.
Import ListNotations.
From Verif Require Import Text Machine Red Rule Rules Check Process Session GrammarTags.
Local Open Scope string_scope.
Local Open Scope list_scope.

(** process.rs:96-100.  Simplification: the path is shown as it is, std's Path::display replaces what
    is not UTF-8. *)
Definition fixed_line (p : path) (iterations : nat) : text :=
  txt "fixed " ++ p ++ txt " in " ++ nat_text iterations ++ txt " iterations".

Section Said.
  Context (dbg : bool) (sort : list (text * suggestion) -> out (list (text * suggestion))) (cf : config).

  (** process.rs:44-115: the lines that the task of a file prints on stdout; what else it does is in
      [Process.file_task] *)
  Definition task_stdout (p : path) (fix_opt write_ok : bool) (definitions : list rule) (read : option text) : list text :=
    match read with
    | None => []
    | Some content =>
      match parse_file dbg content with
      | Crashed => []
      | Done (t, errs) =>
        let rules := get_file_active_rules (root_elem t) definitions in
        match run_rules cf rules t with
        | Crashed => []
        | Done rs =>
          if fix_opt then
            match iteratively_apply_suggestions dbg sort cf (mkFile content t errs rules) rs with
            | Ok (_, _, dirty, iterations) => if dirty then if write_ok then [fixed_line p iterations] else [] else []
            | _ => []
            end
          else []
        end
      end
    end.
End Said.
