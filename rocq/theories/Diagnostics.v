(** The messages on stderr: crates/ludtwig/src/check.rs, produce_diagnostics *)
From Coq Require Import NArith String List.
Import ListNotations.
From Verif Require Import Text Kind ParserApi Machine Red Rule Process Render.
Local Open Scope string_scope.
Local Open Scope list_scope.

(** codespan-reporting, Label: a range of the file with a text.  The file is left out: all labels
    of one call belong to the same one (check.rs:196-199). *)
Record label : Set := mkLabel
  { lb_primary : bool; lb_start : nat; lb_end : nat; lb_msg : text }.
(** codespan-reporting, Diagnostic, without the notes below the message *)
Record diagnostic : Set := mkDiagnostic
  { dg_severity : severity; dg_code : text; dg_msg : text; dg_labels : list label }.

(** check.rs:217-228; [Crashed]: the Display of the found kind is unreachable!() *)
Definition error_diagnostic (e : perror) : out diagnostic :=
  match expected_message e with
  | Some m => Done (mkDiagnostic SError (txt "SyntaxError") (txt "The parser encountered a syntax error")
                      [mkLabel true (err_start e) (err_end e) m])
  | None => Crashed
  end.

(** check.rs:231-268 *)
Definition result_diagnostic (r : result) : diagnostic :=
  mkDiagnostic (rs_severity r) (rs_rule r) (rs_msg r)
    (match rs_primary r with Some p => [mkLabel true (nt_start p) (nt_end p) (nt_msg p)] | None => [] end
     ++ map (fun n => mkLabel false (nt_start n) (nt_end n) (nt_msg n)) (rs_secondary r)
     ++ map (fun s => mkLabel false (sg_start s) (sg_end s) (sg_msg s ++ txt ": " ++ sg_text s)) (rs_suggestions r)).

(** check.rs:217-228: the loop over the parse errors *)
Fixpoint error_diagnostics (es : list perror) : out (list diagnostic) :=
  match es with
  | [] => Done []
  | e :: es =>
    match error_diagnostic e, error_diagnostics es with
    | Done d, Done ds => Done (d :: ds)
    | _, _ => Crashed
    end
  end.

(** check.rs:189-270: the messages in the order they are written.  The syntax tree of --inspect
    (check.rs:205-215) is left out; so is the layout of the messages, which codespan-reporting
    does.  It returns an error, on which the [unwrap] panics, if a label does not lie in the
    file. *)
Definition diagnostics (fc : file_context) (rs : list result) : out (list diagnostic) :=
  match error_diagnostics (fc_errors fc) with
  | Done ds => Done (ds ++ map result_diagnostic rs)
  | Crashed => Crashed
  end.
