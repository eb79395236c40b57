(** Selecting and running rules: crates/ludtwig/src/check/rules.rs and check.rs. *)
From Coq Require Import NArith Bool Arith String List.
Import ListNotations.
From Verif Require Import Text Kind Machine TreeSpec Red Typed Rule Rules.
Local Open Scope string_scope.
Local Open Scope list_scope.

(** * Selection *)

(** error.rs:67-69: the result of the selection is either the rules or the unknown name *)
Inductive selection : Type := Selected (rules : list rule) | RuleNotFound (name : text).

(** rules.rs:79-110 get_config_active_rule_definitions, for any table of definitions *)
Definition get_config_active_rules (definitions : list rule) (names : list text) : selection :=
  let active := filter (fun r => mem_text (rl_name r) names) definitions in
  match find (fun n => negb (existsb (fun r => text_eqb (rl_name r) n) active)) names with
  | Some n => RuleNotFound n
  | None => Selected active
  end.

(** rules.rs:118-132: the rules disabled by the file directives; [None] for all of them *)
Fixpoint disabled_rules (directives : list elem) (acc : list text) : option (list text) :=
  match directives with
  | [] => Some acc
  | d :: r =>
    match get_rules d with
    | [] => None
    | names => disabled_rules r (acc ++ names)
    end
  end.

(** rules.rs:114-139 get_file_active_rule_definitions *)
Definition get_file_active_rules (root : elem) (definitions : list rule) : list rule :=
  match disabled_rules (support_children LUDTWIG_DIRECTIVE_FILE_IGNORE root) [] with
  | None => []
  | Some disabled => filter (fun d => negb (mem_text (rl_name d) disabled)) definitions
  end.

(** * Running *)

(** check.rs:65-80, 139-145: the rule names of an ignore directive directly before an element *)
Definition directive_before (e : elem) : option (list text) :=
  let? s := prev_sibling_or_token e in
  let? d := cast LUDTWIG_DIRECTIVE_IGNORE s in Some (get_rules d).

(** check.rs:94-104, 158-168: nodes in which whitespace matters *)
Definition is_sensitive (e : elem) : bool :=
  match el_kind e with
  | HTML_STRING_INNER | TWIG_LITERAL_STRING_INNER => true
  | _ => is_sensitive_tag e
  end.

(** check.rs:147-154: remove the first occurrence, panic if there is none *)
Fixpoint remove_first (x : text) (l : list text) : out (list text) :=
  match l with
  | [] => Crashed
  | y :: r =>
    if text_eqb y x then Done r
    else match remove_first x r with Done r' => Done (y :: r') | Crashed => Crashed end
  end.
(** check.rs:147-154: the loop *)
Fixpoint remove_all (xs l : list text) : out (list text) :=
  match xs with
  | [] => Done l
  | x :: xs' => match remove_first x l with Done l' => remove_all xs' l' | Crashed => Crashed end
  end.

(** check.rs:26-32, 58: the state of the walk *)
Record run_state : Set := mkRun
  { ru_ignored : list text; ru_sensitive : bool; ru_results : list result }.

Section Run.
  Context (cf : config) (rules : list rule).

  (** check.rs:107-118, 121-133: run the rules that are not ignored on one element *)
  Definition run_element (ignored : list text) (sensitive : bool) (e : elem) : list result :=
    flat_map (fun r =>
      if mem_text (rl_name r) ignored then []
      else (if is_node (el_tree e) then rl_node r else rl_token r) (mkCtx cf sensitive) e) rules.

  (** check.rs:62-136 *)
  Definition run_enter (s : run_state) (e : elem) : out (run_state * bool) :=
    match directive_before e with
    | Some [] => Done (s, true)
    | found =>
      let ignored := ru_ignored s ++ match found with Some names => names | None => [] end in
      if is_node (el_tree e) then
        if kind_eqb (el_kind e) ERROR then
          Done (mkRun ignored (ru_sensitive s) (ru_results s), true)
        else
          let sensitive := if is_sensitive e then true else ru_sensitive s in
          Done (mkRun ignored sensitive (ru_results s ++ run_element ignored sensitive e), false)
      else
        Done (mkRun ignored (ru_sensitive s)
                (ru_results s ++ run_element ignored (ru_sensitive s) e), false)
    end.

  (** check.rs:137-170 *)
  Definition run_leave (s : run_state) (e : elem) : out run_state :=
    let found := match directive_before e with Some names => names | None => [] end in
    match remove_all found (ru_ignored s) with
    | Crashed => Crashed
    | Done ignored =>
      let sensitive :=
        if is_node (el_tree e) && is_sensitive e then false else ru_sensitive s in
      Done (mkRun ignored sensitive (ru_results s))
    end.

  (** check.rs:49-55: the root checks of all rules in order *)
  Fixpoint run_roots (rs : list rule) (root : elem) : out (list result) :=
    match rs with
    | [] => Done []
    | r :: rs' =>
      match rl_root r (mkCtx cf false) root with
      | Crashed => Crashed
      | Done a => match run_roots rs' root with Done b => Done (a ++ b) | Crashed => Crashed end
      end
    end.

  (** check.rs:57-172: the walk, started after the root checks *)
  Definition run_walk (t : tree) (s : run_state) : out run_state :=
    walk_root true run_enter run_leave t s.

  (** check.rs:25-175 run_rules *)
  Definition run_rules (t : tree) : out (list result) :=
    match rules with
    | [] => Done []
    | _ =>
      match run_roots rules (root_elem t) with
      | Crashed => Crashed
      | Done roots =>
        match run_walk t (mkRun [] false roots) with
        | Crashed => Crashed
        | Done s => Done (ru_results s)
        end
      end
    end.
End Run.

(** check.rs:177-187 get_rule_context_suggestions *)
Definition rule_suggestions (rs : list result) : list (text * suggestion) :=
  flat_map (fun r => map (fun s => (rs_rule r, s)) (rs_suggestions r)) rs.
