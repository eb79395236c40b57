(** Rules, their results and the configuration they read:
    crates/ludtwig/src/check/rule.rs and config.rs. *)
From Coq Require Import NArith Bool Arith String List.
Import ListNotations.
From Verif Require Import Text Kind Machine TreeSpec Red Typed.
Local Open Scope string_scope.
Local Open Scope list_scope.

(** config.rs:47-52, 76-82, 106-112 *)
Inductive indentation_mode : Set := ISpace | ITab.
(** config.rs:76-82 LineEnding *)
Inductive line_ending : Set := UnixLF | WindowsCRLF.
(** config.rs:106-112 Quotation *)
Inductive quotation : Set := QSingle | QDouble.

(** config.rs:54-65 and 67-74 *)
Definition show_indentation_mode (m : indentation_mode) : text :=
  match m with ISpace => txt "spaces" | ITab => txt "tabs" end.
(** config.rs:67-74 corresponding_char *)
Definition indentation_char (m : indentation_mode) : N :=
  match m with ISpace => 32%N | ITab => 9%N end.
(** config.rs:84-95 and 97-104 *)
Definition show_line_ending (l : line_ending) : text :=
  match l with UnixLF => txt "UnixLF (\n)" | WindowsCRLF => txt "WindowsCRLF (\r\n)" end.
(** config.rs:97-104 corresponding_string *)
Definition line_ending_text (l : line_ending) : text :=
  match l with UnixLF => [10%N] | WindowsCRLF => [13%N; 10%N] end.
(** config.rs:114-125 and 127-134 *)
Definition show_quotation (q : quotation) : text :=
  match q with QSingle => txt "single quotes (')" | QDouble => txt "double quotes ("")" end.
(** config.rs:127-134 corresponding_char *)
Definition quotation_char (q : quotation) : N :=
  match q with QSingle => 39%N | QDouble => 34%N end.

(** config.rs:11-45 Config, General, Twig, Format; [version] is left out (not read by rules) *)
Record config : Set := mkConfig
  { active_rules : list text;
    cf_line_ending : line_ending;
    cf_indentation_mode : indentation_mode;
    cf_indentation_count : nat;
    indent_children_of_blocks : bool;
    linebreaks_around_blocks : bool;
    twig_quotation : quotation;
    html_quotation : quotation;
    valid_filters : list text;
    valid_tests : list text;
    valid_functions : list text }.

(** rule.rs:213-223 *)
Inductive severity : Set := SError | SWarning | SHelp | SInfo.

(** rule.rs:200-211 *)
Record note : Set := mkNote { nt_start : nat; nt_end : nat; nt_msg : text }.
(** rule.rs:200-211 *)
Record suggestion : Set := mkSug
  { sg_start : nat; sg_end : nat; sg_text : text; sg_msg : text }.

(** rule.rs:152-161 *)
Record result : Set := mkResult
  { rs_rule : text; rs_severity : severity; rs_msg : text;
    rs_primary : option note; rs_secondary : list note; rs_suggestions : list suggestion }.

(** rule.rs:74-83 create_result *)
Definition create_result (rule : text) (s : severity) (msg : text) : result :=
  mkResult rule s msg None [] [].
(** rule.rs:167-173 primary_note; the range is given by its two ends *)
Definition primary_note (s e : nat) (msg : text) (r : result) : result :=
  mkResult (rs_rule r) (rs_severity r) (rs_msg r) (Some (mkNote s e msg)) (rs_secondary r) (rs_suggestions r).
(** rule.rs:176-182 secondary_note *)
Definition secondary_note (s e : nat) (msg : text) (r : result) : result :=
  mkResult (rs_rule r) (rs_severity r) (rs_msg r) (rs_primary r)
           (rs_secondary r ++ [mkNote s e msg]) (rs_suggestions r).
(** rule.rs:185-197 suggestion *)
Definition add_suggestion (s e : nat) (new msg : text) (r : result) : result :=
  mkResult (rs_rule r) (rs_severity r) (rs_msg r) (rs_primary r) (rs_secondary r)
           (rs_suggestions r ++ [mkSug s e new msg]).

(** rule.rs:134-140 RuleRunContext with 129-132 TreeTraversalContext *)
Record context : Set := mkCtx { cx_config : config; cx_sensitive : bool }.

(** rule.rs:7-53 trait Rule; results as lists ([None] and an empty vector are not
    distinguished, check.rs flattens both away); [check_root] can panic. *)
Record rule : Type := mkRule
  { rl_name : text;
    rl_node : context -> elem -> list result;
    rl_token : context -> elem -> list result;
    rl_root : context -> elem -> out (list result) }.

(** The default trait methods (rule.rs:17-52). *)
Definition no_check : context -> elem -> list result := fun _ _ => [].
(** rule.rs:50-52 default check_root *)
Definition no_root : context -> elem -> out (list result) := fun _ _ => Done [].
(** rule.rs:17-52: a rule with check_node only *)
Definition node_rule (name : text) (f : context -> elem -> option result) : rule :=
  mkRule name (fun c e => match f c e with Some r => [r] | None => [] end) no_check no_root.

(** [ignored_rules.iter().any(|r| r == name)] *)
Definition mem_text (x : text) (l : list text) : bool := existsb (fun y => text_eqb y x) l.

(** The directive directly before a node (rule.rs:91-93, 110-112): its rule names, if the
    previous sibling node is an ignore directive. *)
Definition prev_directive (e : elem) : option (list text) :=
  let? s := prev_sibling e in
  let? d := cast LUDTWIG_DIRECTIVE_IGNORE s in Some (get_rules d).

(** rule.rs:85-107 check_for_rule_ignore_enter: the new flag and whether the subtree is
    skipped; also indentation.rs:208-230 *)
Definition ignore_enter (name : text) (is_ignored : bool) (e : elem) : bool * bool :=
  match prev_directive e with
  | Some [] => (is_ignored, true)
  | Some rules => (if mem_text name rules then true else is_ignored, false)
  | None => (is_ignored, false)
  end.

(** rule.rs:109-120 check_for_rule_ignore_leave; also indentation.rs:232-243 *)
Definition ignore_leave (name : text) (is_ignored : bool) (e : elem) : bool :=
  match prev_directive e with
  | Some rules => if mem_text name rules then false else is_ignored
  | None => is_ignored
  end.
