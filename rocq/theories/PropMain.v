(** Property theorems about the whole program: C71. *)
From Coq Require Import NArith ZArith String Bool Arith Lia List.
Import ListNotations.
From Verif Require Import Text Kind ParserApi Machine TreeSpec Red Rule Rules Check Process Output DefaultConfig
  PropSelect PropProcess PropOutput PropReport Session PropSession ConfigLoad Loud Main.
From Verif Require PropSkel PropConfig.
Local Open Scope list_scope.
Local Notation length := List.length (only parsing).

(** * What a user calls a file that is in order *)

(** [t], the final text of a file that contained [t0], has no syntax error, and none of the chosen
    rules that [t0] does not switch off has anything to say about it. *)
Definition in_order (dbg : bool) (cf : config) (rules : list rule) (t0 t : text) : Prop :=
  exists tree0 errs0 tree,
    parse_src dbg t0 = OK (tree0, errs0) /\ parse_src dbg t = OK (tree, []) /\
    run_rules cf (get_file_active_rules (root_elem tree0) rules) tree = Done [].

(** The parser gives up on [t] altogether. *)
Definition unparsable (dbg : bool) (t : text) : Prop := forall r, parse_src dbg t <> OK r.

Section C71.
  Context (dbg : bool) (sort : list (text * suggestion) -> out (list (text * suggestion))).
  Context (toml : text -> option dict) (env_value : text -> value) (by_number : Z -> option nat) (default_raw : text).
  Context (program_version : text) (write_ok : path -> bool).
  Notation program := (program dbg sort toml env_value by_number default_raw program_version write_ok RULE_DEFINITIONS).
  Notation configuration := (config_new toml env_value by_number default_raw).
  Notation chosen cf := (get_config_active_rules RULE_DEFINITIONS (active_rules cf)).
  Notation task cf o rules f p := (file_task dbg sort cf (op_fix o) (op_inspect o) (write_ok p) rules (f p)).

  Lemma chosen_incl cf rules : chosen cf = Selected rules -> incl rules RULE_DEFINITIONS.
  Proof.
    generalize RULE_DEFINITIONS. intros defs. unfold get_config_active_rules. destruct (find _ _); [discriminate|].
    intros [= <-] r Hr. now apply filter_In in Hr.
  Qed.
  Lemma file_rules_incl root rules : incl (get_file_active_rules root rules) rules.
  Proof.
    intros r. unfold get_file_active_rules. destruct (disabled_rules _ _); [|intros []]. intros Hr. now apply filter_In in Hr.
  Qed.

  Lemma handled_inl create verbose l env code :
    outcome (handle_config toml env_value by_number default_raw program_version create verbose l env) = inl code ->
    create = true /\ code = (match here l with Some _ => 1 | None => 0 end) \/ create = false /\ configuration l env = None /\ code = 1.
  Proof.
    unfold handle_config. destruct create.
    - destruct (here l); intros [= <-]; left; auto.
    - destruct (config_new _ _ _ _ l env); [discriminate|]. intros [= <-]. right. auto.
  Qed.
  Lemma handled_inr create verbose l env c :
    outcome (handle_config toml env_value by_number default_raw program_version create verbose l env) = inr c ->
    create = false /\ configuration l env = Some c.
  Proof.
    unfold handle_config. destruct create.
    - destruct (here l); discriminate.
    - destruct (config_new _ _ _ _ l env) as [c'|]; [|discriminate]. intros [= <-]. auto.
  Qed.
  Lemma handled_new o l env c : op_create o = false -> configuration l env = Some c ->
    outcome (handle_config toml env_value by_number default_raw program_version (op_create o) (op_verbose o) l env) = inr c.
  Proof. intros E H. unfold handle_config. rewrite E, H. reflexivity. Qed.

  (** What the received events come to. *)
  Lemma run_code cf o rules f es w received :
    NoDup (spawned es) ->
    steps dbg sort cf (op_fix o) (op_inspect o) rules write_ok (start f (spawned es)) w -> finished w ->
    interleaves [w_events w; walk_reports es] received ->
    (snd (handle_processing_output received) = 0 \/ snd (handle_processing_output received) = 1) /\
    (snd (handle_processing_output received) = 0 <->
     spawned es = [] \/ ~ In WalkFailed es /\ forall p, In p (spawned es) -> forall e, In e (sent (fst (task cf o rules f p))) -> ~ problem e).
  Proof.
    intros ND S Fin I. unfold handle_processing_output, snd.
    destruct (C47_files_are_handled_independently dbg sort cf (op_fix o) (op_inspect o) rules write_ok f (spawned es) w ND S Fin) as (_ & _ & J).
    assert (K : forall e, In e received <-> In e (walk_reports es) \/ exists p, In p (spawned es) /\ In e (sent (fst (task cf o rules f p)))).
    { intros e. rewrite (interleaves_In _ _ e I). split.
      - intros (x & [<-|[<-|[]]] & He); [|left; exact He]. right. apply (interleaves_In _ _ e J) in He as (y & Hy & He).
        apply in_map_iff in Hy as (p & <- & Hp). exists p. split; assumption.
      - intros [He|(p & Hp & He)]; [exists (walk_reports es); cbn; auto|]. exists (w_events w). split; [now left|].
        apply (interleaves_In _ _ e J). eexists. split; [apply in_map_iff; exists p; split; [reflexivity|exact Hp]|exact He]. }
    assert (FP : forall p, In FileProcessed (sent (fst (task cf o rules f p)))).
    { intros p. destruct (task_form dbg sort cf (op_fix o) (op_inspect o) rules write_ok p (f p)) as (l & E & _).
      unfold task_effects in E. rewrite E. now left. }
    assert (WR : forall e, In e (walk_reports es) <-> e = Report SError /\ In WalkFailed es).
    { intros e. unfold walk_reports. rewrite in_flat_map. split.
      - intros ([p|p|] & Hx & He); [destruct He|destruct He|]. destruct He as [<-|[]]. auto.
      - intros [-> H]. exists WalkFailed. split; [exact H|now left]. }
    assert (CE : exit_code (count_events received) = 1 <-> In FileProcessed received /\ exists e, In e received /\ problem e).
    { unfold exit_code, count_events. rewrite count_from. cbn [n_files n_errors n_warnings n_helps plus].
      assert (P : forall e, Nat.ltb 0 (count_occ event_eq_dec received e) = true <-> In e received).
      { intros e. rewrite Nat.ltb_lt. apply count_occ_pos. }
      split.
      - intros E. destruct (Nat.ltb 0 _ && _) eqn:B in E; [|discriminate]. apply andb_true_iff in B as [B1 B2]. apply P in B1. split; [exact B1|].
        apply orb_true_iff in B2 as [B2|B2]; [apply orb_true_iff in B2 as [B2|B2]|]; apply P in B2; eexists; (split; [exact B2|]); unfold problem; auto.
      - intros (H1 & e & H2 & H3). apply P in H1. rewrite H1. cbn [andb].
        assert (Q : Nat.ltb 0 (count_occ event_eq_dec received (Report SError)) || Nat.ltb 0 (count_occ event_eq_dec received (Report SWarning))
          || Nat.ltb 0 (count_occ event_eq_dec received (Report SHelp)) = true); [|rewrite Q; reflexivity].
        rewrite !orb_true_iff, !P. destruct H3 as [-> | [-> | ->]]; auto. }
    assert (C01 : exit_code (count_events received) = 0 \/ exit_code (count_events received) = 1).
    { unfold exit_code. destruct (_ && _); auto. }
    split; [exact C01|]. split.
    - intros Z. destruct (spawned es) as [|p0 ps] eqn:SP; [now left|right].
      assert (N : ~ (In FileProcessed received /\ exists e, In e received /\ problem e)) by (intros H; apply CE in H; rewrite Z in H; discriminate).
      assert (F0 : In FileProcessed received) by (apply K; right; exists p0; split; [now left|apply FP]).
      split.
      + intros H. apply N. split; [exact F0|]. exists (Report SError). split; [apply K; left; apply WR; auto|now left].
      + intros p Hp e He Q. apply N. split; [exact F0|]. exists e. split; [|exact Q]. apply K. right. eauto.
    - intros H. destruct C01 as [E|E]; [exact E|]. exfalso. apply CE in E as (F0 & e & He & Q). destruct H as [H|[H1 H2]].
      + apply K in F0 as [F0|(p & Hp & _)]; [apply WR in F0 as [F0 _]; discriminate F0|rewrite H in Hp; destruct Hp].
      + apply K in He as [He|(p & Hp & He)]; [apply WR in He as [_ He]; auto|]. exact (H2 p Hp e He Q).
  Qed.

  (** The task of one file that has not panicked and has reported no problem. *)
  Lemma quiet_task cf o rules f p : incl rules RULE_DEFINITIONS ->
    snd (task cf o rules f p) <> Crash -> (forall e, In e (sent (fst (task cf o rules f p))) -> ~ problem e) ->
    snd (task cf o rules f p) = Ok tt /\
    exists t0, f p = Some t0 /\ in_order dbg cf rules t0 (file_after t0 (fst (task cf o rules f p))).
  Proof.
    intros RI NC Q. destruct (task cf o rules f p) as [effects out] eqn:E. cbn [fst snd] in *.
    destruct out as [[]|er|]; [|exfalso|contradiction].
    - split; [reflexivity|]. destruct (f p) as [t0|] eqn:Ef; [|discriminate E]. exists t0. split; [reflexivity|].
      destruct (C42_reports_describe_the_final_text dbg sort cf _ _ _ _ _ _ E) as (tr0 & errs0 & tr & errs & rs & P0 & P1 & R & S).
      rewrite S in Q. assert (errs = []).
      { destruct errs as [|e0 errs]; [reflexivity|]. exfalso. apply (Q (Report SError)); [|now left].
        right. apply in_or_app. right. apply in_or_app. left. now left. }
      subst errs. assert (rs = []).
      { destruct rs as [|r rs]; [reflexivity|]. exfalso. apply (Q (Report (rs_severity r))).
        - right. apply in_or_app. right. apply in_or_app. right. apply in_or_app. left. now left.
        - assert (L : rs_severity r <> SInfo).
          { refine (loud_results cf tr _ (r :: rs) _ R r (or_introl eq_refl)). intros x Hx. apply file_rules_incl in Hx. auto. }
          destruct (rs_severity r); unfold problem; auto; contradiction. }
      subst rs. exists tr0, errs0, tr. unfold parse_file in P0, P1.
      destruct (parse_src dbg t0) as [r0| |]; try discriminate P0. destruct (parse_src dbg (file_after t0 effects)) as [r1| |]; try discriminate P1.
      injection P0 as ->. injection P1 as ->. repeat split. exact R.
    - exact (Q _ (C42_failures_are_reported dbg sort cf _ _ _ _ _ _ _ E) (or_introl eq_refl)).
  Qed.

  (** What is in a file after a run in which its task has not failed. *)
  Lemma run_file cf o rules f es w p t0 :
    NoDup (spawned es) -> steps dbg sort cf (op_fix o) (op_inspect o) rules write_ok (start f (spawned es)) w -> finished w ->
    In p (spawned es) -> f p = Some t0 -> snd (task cf o rules f p) = Ok tt ->
    w_files w p = Some (file_after t0 (fst (task cf o rules f p))).
  Proof.
    intros ND S Fin Hp E0 OKt.
    assert (W : write_ok p = true \/ forall c, ~ In (WriteFile c) (fst (task cf o rules f p))).
    { destruct (write_ok p) eqn:Wp; [now left|right]. intros c Hc. rewrite E0 in OKt, Hc. revert OKt Hc.
      unfold file_task, process_file, run_analysis. destruct (parse_file dbg t0) as [[t errs]|]; [|discriminate].
      destruct (run_rules cf _ t) as [rs|]; [|discriminate].
      assert (N : forall fc rs', ~ In (WriteFile c) ([Send FileProcessed; ReadFile] ++ produce_diagnostics (op_inspect o) fc rs' ++ [Send OutputStderrMessage])).
      { intros fc rs' H. apply in_app_or in H as [[H|[H|[]]]|H]; try discriminate H.
        pose proof (diagnostics_writes (op_inspect o) fc rs') as D.
        assert (X : In c (writes (produce_diagnostics (op_inspect o) fc rs' ++ [Send OutputStderrMessage]))).
        { unfold writes. apply in_flat_map. exists (WriteFile c). split; [exact H|now left]. }
        rewrite D in X. destruct X. }
      destruct (op_fix o).
      - destruct (iteratively_apply_suggestions _ _ _ _ _) as [[[[fc' rs'] dirty] i]|e|]; [|discriminate|discriminate].
        destruct dirty; [discriminate|]. intros _. apply N.
      - intros _. apply N. }
    destruct W as [W|W].
    - destruct (C47_files_are_handled_independently dbg sort cf (op_fix o) (op_inspect o) rules write_ok f (spawned es) w ND S Fin) as (A & _ & _).
      rewrite (A p Hp W). unfold outcome_of, file_after, task_effects. rewrite E0.
      pose proof (one_write dbg sort cf (op_fix o) (op_inspect o) rules write_ok p (Some t0)) as L. unfold task_effects in L.
      destruct (writes _) as [|c [|c' cs]]; [reflexivity|reflexivity|cbn in L; lia].
    - rewrite (C48_files_without_fixes_are_never_touched dbg sort cf (op_fix o) (op_inspect o) rules write_ok f (spawned es) w p ND S W).
      rewrite E0. f_equal. unfold file_after. rewrite E0 in W.
      destruct (writes (fst (file_task dbg sort cf (op_fix o) (op_inspect o) (write_ok p) rules (Some t0)))) as [|c cs] eqn:X; [reflexivity|]. exfalso.
      assert (Y : In c (writes (fst (file_task dbg sort cf (op_fix o) (op_inspect o) (write_ok p) rules (Some t0))))) by (rewrite X; now left).
      unfold writes in Y. apply in_flat_map in Y as ([e| |c'] & Hy & Y); [destruct Y|destruct Y|destruct Y as [->|[]]]. exact (W _ Hy).
  Qed.

  Lemma no_fix_no_write cf o rules f p t0 : op_fix o = false -> file_after t0 (fst (task cf o rules f p)) = t0.
  Proof.
    intros NF. destruct (task cf o rules f p) as [l out] eqn:E. unfold file_after. cbn [fst].
    destruct (C25_files_change_only_through_a_successful_fix dbg sort cf _ _ _ _ _ _ _ E) as [N|(content & t & errs & rs & fc' & rs' & i & Z & _)].
    - rewrite N. reflexivity.
    - rewrite NF in Z. discriminate Z.
  Qed.

  (** A file in order is left alone and nothing is reported. *)
  Lemma task_in_order cf o rules f p t0 : f p = Some t0 -> in_order dbg cf rules t0 t0 ->
    snd (task cf o rules f p) = Ok tt /\ writes (fst (task cf o rules f p)) = [] /\
    forall e, In e (sent (fst (task cf o rules f p))) -> ~ problem e.
  Proof.
    intros E (tr & errs & tr' & P & P' & R). rewrite P in P'. injection P' as <- ->. rewrite E.
    unfold file_task, process_file, run_analysis, parse_file. rewrite P. cbv zeta. rewrite R.
    assert (G : forall b : bool, (if b then match iteratively_apply_suggestions dbg sort cf (mkFile t0 tr [] (get_file_active_rules (root_elem tr) rules)) [] with
         | Ok (fc', rs', dirty, _) => if dirty then if write_ok p then (WriteFile (fc_source fc') :: produce_diagnostics (op_inspect o) fc' rs' ++ [Send OutputStderrMessage], Ok tt)
             else ([WriteFile (fc_source fc')], Err FileWrite) else (produce_diagnostics (op_inspect o) fc' rs' ++ [Send OutputStderrMessage], Ok tt)
         | Err e => ([], Err e) | Crash => ([], Crash) end
       else (produce_diagnostics (op_inspect o) (mkFile t0 tr [] (get_file_active_rules (root_elem tr) rules)) [] ++ [Send OutputStderrMessage], Ok tt))
      = ((if op_inspect o then [Send (Report SInfo)] else []) ++ [Send OutputStderrMessage], Ok tt)).
    { intros b. assert (D : produce_diagnostics (op_inspect o) (mkFile t0 tr [] (get_file_active_rules (root_elem tr) rules)) [] = (if op_inspect o then [Send (Report SInfo)] else [])).
      { unfold produce_diagnostics. cbn [fc_errors map]. rewrite !app_nil_r. reflexivity. }
      destruct b; [|rewrite D; reflexivity]. change (iteratively_apply_suggestions dbg sort cf (mkFile t0 tr [] (get_file_active_rules (root_elem tr) rules)) [])
        with (Ok (mkFile t0 tr [] (get_file_active_rules (root_elem tr) rules), @nil result, false, 0)). cbv beta iota. rewrite D. reflexivity. }
    rewrite G. cbn [app fst snd]. split; [reflexivity|]. destruct (op_inspect o); cbn; (split; [reflexivity|]); intros e He Q; unfold problem in Q;
      repeat (destruct He as [<-|He]; [destruct Q as [Q|[Q|Q]]; discriminate Q|]); destruct He.
  Qed.

  (** * Exit code 0 means that everything is in order *)

  (** If files are checked and the exit code is 0, then the configuration has been understood, there was no
      failure while looking for files, every file found was readable, and its final text is in order. *)
  Theorem C71_exit_code_zero_means_in_order : forall o l env ignore_ok es f f',
    op_create o = false -> NoDup (spawned es) -> spawned es <> [] ->
    program o l env ignore_ok es f f' 0 ->
    exists c rules,
      configuration l env = Some c /\ chosen (ld_config c) = Selected rules /\ ~ In WalkFailed es /\
      forall p, In (WalkedFile p) es -> exists t0 t,
        f p = Some t0 /\ f' p = Some t /\ in_order dbg (ld_config c) rules t0 t /\ (op_fix o = false -> t = t0).
  Proof.
    intros o l env ignore_ok es f f' NC ND NE H.
    remember 0 as code eqn:Z in H. destruct H as [code H|c n H _|c rules H _ _|c rules w H _ _ _ _ _|c rules w received H C I S Fin NP IL]; try discriminate Z.
    - apply handled_inl in H as [[H _]|(_ & _ & H)]; [rewrite NC in H; discriminate H|subst; discriminate H].
    - apply handled_inr in H as [_ H]. exists c, rules. split; [exact H|]. split; [exact C|].
      destruct (run_code (ld_config c) o rules f es w received ND S Fin IL) as [_ RC]. destruct (proj1 RC Z) as [Z0|[NW Q]]; [contradiction|].
      split; [exact NW|]. intros p Hp0. assert (Hp : In p (spawned es)) by (unfold spawned; apply in_flat_map; exists (WalkedFile p); split; [exact Hp0|now left]).
      destruct (quiet_task (ld_config c) o rules f p (chosen_incl _ _ C) (NP p Hp) (Q p Hp)) as (OKt & t0 & E0 & IO).
      exists t0, (file_after t0 (fst (task (ld_config c) o rules f p))). split; [exact E0|]. split; [|split; [exact IO|apply no_fix_no_write]].
      apply (run_file _ _ _ _ es); assumption.
  Qed.

  (** Templates in order: exit code 0 and nothing changes, with and without --fix. *)
  Theorem C71_templates_in_order_pass : forall o l env es f f' code c rules,
    op_create o = false -> NoDup (spawned es) ->
    configuration l env = Some c -> chosen (ld_config c) = Selected rules -> ~ In WalkFailed es ->
    (forall p, In (WalkedFile p) es -> exists t0, f p = Some t0 /\ in_order dbg (ld_config c) rules t0 t0) ->
    program o l env true es f f' code -> code = 0 /\ forall p, f' p = f p.
  Proof.
    intros o l env es f f' code c rules NC ND HC HS NW IO H.
    assert (IO' : forall p, In p (spawned es) -> exists t0, f p = Some t0 /\ in_order dbg (ld_config c) rules t0 t0).
    { intros p Hp. apply IO. unfold spawned in Hp. apply in_flat_map in Hp as ([q|q|] & Hq & Hp); [destruct Hp as [->|[]]; exact Hq|destruct Hp|destruct Hp]. }
    destruct H as [code H|c' n H C|c' rules' H C I|c' rules' w H C I S Fin (p & Hp & P)|c' rules' w received H C I S Fin NP IL].
    - apply handled_inl in H as [[H _]|(_ & H & _)]; [rewrite NC in H; discriminate H|rewrite HC in H; discriminate H].
    - apply handled_inr in H as [_ H]. rewrite HC in H. injection H as <-. rewrite HS in C. discriminate C.
    - discriminate I.
    - apply handled_inr in H as [_ H]. rewrite HC in H. injection H as <-. rewrite HS in C. injection C as <-. exfalso.
      destruct (IO' p Hp) as (t0 & E0 & T). destruct (task_in_order (ld_config c) o rules f p t0 E0 T) as [X _].
      unfold task_panics in P. rewrite P in X. discriminate X.
    - apply handled_inr in H as [_ H]. rewrite HC in H. injection H as <-. rewrite HS in C. injection C as <-.
      destruct (run_code (ld_config c) o rules f es w received ND S Fin IL) as [_ RC]. split.
      + apply RC. right. split; [exact NW|]. intros p Hp. destruct (IO' p Hp) as (t0 & E0 & T).
        now destruct (task_in_order (ld_config c) o rules f p t0 E0 T) as (_ & _ & X).
      + intros p. destruct (in_dec (list_eq_dec N.eq_dec) p (spawned es)) as [Hp|Hp].
        * destruct (IO' p Hp) as (t0 & E0 & T). destruct (task_in_order (ld_config c) o rules f p t0 E0 T) as (X & Y & _).
          rewrite (run_file (ld_config c) o rules f es w p t0 ND S Fin Hp E0 X). unfold file_after. rewrite Y, E0. reflexivity.
        * now apply (C47_files_are_handled_independently dbg sort (ld_config c) (op_fix o) (op_inspect o) rules write_ok f (spawned es) w ND S Fin).
  Qed.

  (** The exit code is 0, 1 or 101, only files found by the walk can change, and only with --fix. *)
  Theorem C71_only_found_files_change : forall o l env ignore_ok es f f' code,
    NoDup (spawned es) -> program o l env ignore_ok es f f' code ->
    (code = 0 \/ code = 1 \/ code = 101) /\
    (forall p, ~ In (WalkedFile p) es -> f' p = f p) /\
    (op_fix o = false -> forall p, f' p = f p).
  Proof.
    intros o l env ignore_ok es f f' code ND H.
    assert (SP : forall p, In p (spawned es) -> In (WalkedFile p) es).
    { intros p Hp. unfold spawned in Hp. apply in_flat_map in Hp as ([q|q|] & Hq & Hp); [destruct Hp as [->|[]]; exact Hq|destruct Hp|destruct Hp]. }
    assert (W : forall cf rules w, steps dbg sort cf (op_fix o) (op_inspect o) rules write_ok (start f (spawned es)) w -> finished w ->
      (forall p, ~ In (WalkedFile p) es -> w_files w p = f p) /\ (op_fix o = false -> forall p, w_files w p = f p)).
    { intros cf rules w S Fin. split.
      - intros p Hp. apply (C47_files_are_handled_independently dbg sort cf (op_fix o) (op_inspect o) rules write_ok f (spawned es) w ND S Fin). auto.
      - intros NF p. refine (C48_files_without_fixes_are_never_touched dbg sort cf (op_fix o) (op_inspect o) rules write_ok f (spawned es) w p ND S _).
        intros c Hc. unfold task_effects in Hc. destruct (task cf o rules f p) as [eff out] eqn:E. cbn [fst] in Hc.
        assert (X : In c (writes eff)) by (unfold writes; apply in_flat_map; exists (WriteFile c); split; [exact Hc|now left]).
        destruct (C25_files_change_only_through_a_successful_fix dbg sort cf _ _ _ _ _ _ _ E) as [N|(content & t & errs & rs & fc' & rs' & i & Z & _)].
        + rewrite N in X. destruct X.
        + rewrite NF in Z. discriminate Z. }
    destruct H as [code H|c n H _|c rules H _ _|c rules w H _ _ S Fin _|c rules w received H C I S Fin NP IL].
    - split; [|split; reflexivity]. apply handled_inl in H as [[_ ->]|(_ & _ & ->)]; [destruct (here l)|]; auto.
    - split; [auto|split; reflexivity].
    - split; [auto|split; reflexivity].
    - split; [auto|]. exact (W _ _ _ S Fin).
    - split; [|exact (W _ _ _ S Fin)]. destruct (run_code (ld_config c) o rules f es w received ND S Fin IL) as [[E|E] _]; rewrite E; auto.
  Qed.

  (** If the configuration is only to be created, cannot be understood, or names an unknown rule, or if the
      ignore file cannot be used, no template is touched. *)
  Theorem C71_no_configuration_no_run : forall o l env ignore_ok es f f' code,
    program o l env ignore_ok es f f' code ->
    (op_create o = true -> f' = f /\ code = match here l with Some _ => 1 | None => 0 end) /\
    (op_create o = false -> configuration l env = None -> f' = f /\ code = 1) /\
    (forall c n, op_create o = false -> configuration l env = Some c -> In n (active_rules (ld_config c)) -> ~ known n -> f' = f /\ code = 1) /\
    (op_create o = false -> ignore_ok = false -> f' = f /\ code = 1).
  Proof.
    intros o l env ignore_ok es f f' code H.
    assert (U : forall c n rules, In n (active_rules (ld_config c)) -> ~ known n -> chosen (ld_config c) = Selected rules -> False).
    { intros c n rules Hn Un C. pose proof (C19_unknown_rule_name_fails_the_run (ld_config c) [] n Hn Un) as X.
      unfold Output.app in X. rewrite C in X. cbv in X. discriminate X. }
    destruct H as [code H|c n H C|c rules H C I|c rules w H C I S Fin P|c rules w received H C I S Fin NP IL].
    - apply handled_inl in H as [[H ->]|(H & N & ->)]; rewrite H; repeat split; try discriminate; try (intros; congruence).
    - apply handled_inr in H as [H N]. rewrite H, N. repeat split; discriminate.
    - apply handled_inr in H as [H N]. rewrite H, N. repeat split; discriminate.
    - apply handled_inr in H as [H N]. rewrite H, N, I. split; [discriminate|]. split; [discriminate|]. split; [|discriminate].
      intros c1 n _ [= <-] Hn Un. destruct (U c n rules Hn Un C).
    - apply handled_inr in H as [H N]. rewrite H, N, I. split; [discriminate|]. split; [discriminate|]. split; [|discriminate].
      intros c1 n _ [= <-] Hn Un. destruct (U c n rules Hn Un C).
  Qed.

  (** Without --fix the program panics exactly if the parser does on one of the files. *)
  Theorem C71_exit_code_101 : forall o l env es f f' code c rules,
    op_create o = false -> op_fix o = false -> NoDup (spawned es) ->
    configuration l env = Some c -> chosen (ld_config c) = Selected rules ->
    program o l env true es f f' code ->
    (code = 101 <-> exists p t, In (WalkedFile p) es /\ f p = Some t /\ unparsable dbg t).
  Proof.
    intros o l env es f f' code c rules NC NF ND HC HS H.
    assert (SP : forall p, In p (spawned es) <-> In (WalkedFile p) es).
    { intros p. unfold spawned. rewrite in_flat_map. split.
      - intros ([q|q|] & Hq & Hp); [destruct Hp as [->|[]]; exact Hq|destruct Hp|destruct Hp].
      - intros Hp. exists (WalkedFile p). split; [exact Hp|now left]. }
    assert (T : forall p, task_panics dbg sort write_ok (ld_config c) o rules f p <-> exists t, f p = Some t /\ unparsable dbg t).
    { intros p. unfold task_panics, file_task, process_file, run_analysis, unparsable. destruct (f p) as [t|].
      - assert (PF : (parse_file dbg t = Crashed <-> forall r, parse_src dbg t <> OK r)).
        { unfold parse_file. destruct (parse_src dbg t) as [r| |]; split; intros X; try reflexivity; try discriminate. destruct (X r eq_refl). }
        split.
        + intros E. exists t. split; [reflexivity|]. apply PF. destruct (parse_file dbg t) as [[tr errs]|] eqn:P; [|reflexivity].
          destruct (PropSkel.C14_rules_never_crash (ld_config c) dbg t tr errs (get_file_active_rules (root_elem tr) rules) P) as (rs & R).
          { intros x Hx. apply file_rules_incl in Hx. exact (chosen_incl _ _ HS x Hx). }
          rewrite R, NF in E. discriminate E.
        + intros (t' & [= <-] & X). apply PF in X. rewrite X. reflexivity.
      - split; [discriminate|]. intros (t & X & _). discriminate X. }
    assert (PN : (exists p, In p (spawned es) /\ task_panics dbg sort write_ok (ld_config c) o rules f p) <-> exists p t, In (WalkedFile p) es /\ f p = Some t /\ unparsable dbg t).
    { split.
      - intros (p & Hp & X). apply T in X as (t & X & Y). exists p, t. rewrite <- SP. auto.
      - intros (p & t & Hp & X & Y). exists p. rewrite SP, T. eauto. }
    rewrite <- PN. clear PN SP T.
    destruct H as [code H|c' n H C|c' rules' H C I|c' rules' w H C I S Fin P|c' rules' w received H C I S Fin NP IL].
    - apply handled_inl in H as [[H _]|(_ & H & _)]; [rewrite NC in H; discriminate H|rewrite HC in H; discriminate H].
    - apply handled_inr in H as [_ H]. rewrite HC in H. injection H as <-. rewrite HS in C. discriminate C.
    - discriminate I.
    - apply handled_inr in H as [_ H]. rewrite HC in H. injection H as <-. rewrite HS in C. injection C as <-. split; auto.
    - apply handled_inr in H as [_ H]. rewrite HC in H. injection H as <-. rewrite HS in C. injection C as <-.
      destruct (run_code (ld_config c) o rules f es w received ND S Fin IL) as [[E|E] _]; rewrite E; (split; [discriminate|]);
        intros (p & Hp & X); destruct (NP p Hp X).
  Qed.

  (** The exit code and the files do not depend on the order in which the tasks run. *)
  Theorem C71_runs_agree : forall o l env ignore_ok es f f1 code1 f2 code2,
    NoDup (spawned es) -> (forall p, In (WalkedFile p) es -> write_ok p = true) ->
    program o l env ignore_ok es f f1 code1 -> program o l env ignore_ok es f f2 code2 ->
    code1 = code2 /\ forall p, f1 p = f2 p.
  Proof.
    intros o l env ignore_ok es f f1 code1 f2 code2 ND OKs H1 H2.
    assert (OK' : forall p, In p (spawned es) -> write_ok p = true).
    { intros p Hp. apply OKs. unfold spawned in Hp. apply in_flat_map in Hp as ([q|q|] & Hq & Hp); [destruct Hp as [->|[]]; exact Hq|destruct Hp|destruct Hp]. }
    destruct H1 as [code H|c n H C|c rules H C I|c rules w H C I S Fin P|c rules w received H C I S Fin NP IL];
    destruct H2 as [code' H'|c' n' H' C'|c' rules' H' C' I'|c' rules' w' H' C' I' S' Fin' P'|c' rules' w' received' H' C' I' S' Fin' NP' IL'];
      rewrite H in H'; try discriminate H'; injection H' as <-; try (rewrite C in C'; try discriminate C'; injection C' as <-); auto;
      try (exfalso; rewrite I in I'; discriminate I').
    - split; [reflexivity|]. apply (C47_schedules_agree dbg sort (ld_config c) (op_fix o) (op_inspect o) rules write_ok f (spawned es) w w'); assumption.
    - exfalso. destruct P as (p & Hp & P). exact (NP' p Hp P).
    - exfalso. destruct P' as (p & Hp & P'). exact (NP p Hp P').
    - destruct (C47_schedules_agree dbg sort (ld_config c) (op_fix o) (op_inspect o) rules write_ok f (spawned es) w w' ND OK' S Fin S' Fin') as [A _].
      split; [|exact A]. destruct (run_code (ld_config c) o rules f es w received ND S Fin IL) as [B1 B2].
      destruct (run_code (ld_config c) o rules f es w' received' ND S' Fin' IL') as [B1' B2'].
      destruct B1 as [B1|B1]; destruct B1' as [B1'|B1']; rewrite B1, B1'; try reflexivity; exfalso; rewrite <- B2 in B2'; destruct B2' as [X Y].
      + rewrite (Y B1) in B1'. discriminate B1'.
      + rewrite (X B1') in B1. discriminate B1.
  Qed.

  (** There is always a run to its end: the program neither gets stuck nor runs forever. *)
  Theorem C71_the_program_can_always_finish : forall o l env ignore_ok es f, exists f' code, program o l env ignore_ok es f f' code.
  Proof.
    intros o l env ignore_ok es f.
    destruct (outcome (handle_config toml env_value by_number default_raw program_version (op_create o) (op_verbose o) l env)) as [code|c] eqn:H.
    { exists f, code. now apply p_config. }
    destruct (chosen (ld_config c)) as [rules|n] eqn:C; [|exists f, 1; eapply p_rules; eassumption].
    destruct ignore_ok eqn:I; [|exists f, 1; eapply p_ignore; eauto].
    assert (X : exists w, steps dbg sort (ld_config c) (op_fix o) (op_inspect o) rules write_ok (start f (spawned es)) w /\ finished w).
    { assert (G : forall w, steps dbg sort (ld_config c) (op_fix o) (op_inspect o) rules write_ok (start f (spawned es)) w ->
         exists w', steps dbg sort (ld_config c) (op_fix o) (op_inspect o) rules write_ok (start f (spawned es)) w' /\ finished w').
      { intros w. pose proof (C47_every_run_ends dbg sort (ld_config c) (op_fix o) (op_inspect o) rules write_ok w) as A.
        induction A as [w _ IH]. intros S. destruct (C47_runs_can_always_go_on _ _ _ _ _ _ _ _ _ _ S) as [F|(w' & N)]; [eauto|].
        apply (IH w' N). eapply steps_more; eassumption. }
      apply (G (start f (spawned es))). constructor. }
    destruct X as (w & S & Fin).
    assert (D : (exists p, In p (spawned es) /\ task_panics dbg sort write_ok (ld_config c) o rules f p) \/
                (forall p, In p (spawned es) -> ~ task_panics dbg sort write_ok (ld_config c) o rules f p)).
    { clear. induction (spawned es) as [|p ps IH]; [right; intros p []|].
      destruct IH as [(q & Hq & P)|N]; [left; exists q; split; [now right|exact P]|].
      destruct (snd (task (ld_config c) o rules f p)) eqn:E.
      - right. intros q [<-|Hq]; [unfold task_panics; rewrite E; discriminate|auto].
      - right. intros q [<-|Hq]; [unfold task_panics; rewrite E; discriminate|auto].
      - left. exists p. split; [now left|exact E]. }
    destruct D as [D|D].
    - exists (w_files w), 101. eapply p_panic; eauto.
    - assert (IL : exists received, interleaves [w_events w; walk_reports es] received).
      { exists (w_events w ++ walk_reports es). induction (w_events w) as [|e evs IH].
        - cbn [List.app]. induction (walk_reports es) as [|e evs IH]; [apply il_done; repeat constructor|]. exact (il_step [[]] e evs [] evs IH).
        - exact (il_step [] e evs [walk_reports es] (evs ++ walk_reports es) IH). }
      destruct IL as (received & IL). exists (w_files w). eexists. eapply p_run; eauto.
  Qed.
End C71.

(** * Cases: two files of which one is fixed, then the same files again, then a file that the parser cannot stand *)
Definition C71_rules : list rule := filter (fun r => mem_text (rl_name r) (active_rules default_config)) RULE_DEFINITIONS.
Definition C71_place : location := mkLocation None [].
Definition C71_found : list walked := [WalkedFile pa; WalkedDirectory (txt "d"%string); WalkedFile pb].
Notation C71_program := (program true insertion_sort PropConfig.some_toml PropConfig.plain_env PropConfig.no_number (txt "built in"%string)
  (txt "1"%string) (fun _ => true) RULE_DEFINITIONS).

Lemma C71_case_configuration verbose : outcome (handle_config PropConfig.some_toml PropConfig.plain_env PropConfig.no_number (txt "built in"%string)
    (txt "1"%string) false verbose C71_place []) = inr (mkLoaded (txt "1"%string) default_config).
Proof. vm_compute. reflexivity. Qed.
Lemma all_found defs names :
  match find (fun n => negb (existsb (fun r => text_eqb (rl_name r) n) (filter (fun r => mem_text (rl_name r) names) defs))) names with
  | None => true | Some _ => false end = true ->
  get_config_active_rules defs names = Selected (filter (fun r => mem_text (rl_name r) names) defs).
Proof. unfold get_config_active_rules. destruct (find _ _); [discriminate|reflexivity]. Qed.
Lemma C71_case_rules : get_config_active_rules RULE_DEFINITIONS (active_rules default_config) = Selected C71_rules.
Proof. apply (all_found RULE_DEFINITIONS (active_rules default_config)). vm_compute. reflexivity. Qed.

(** With --fix: exit code 0, the first file has been changed. *)
Example C71_case_fix : exists f', C71_program (mkOptions true false true false) C71_place [] true C71_found two_texts f' 0 /\
  f' pa = Some after /\ f' pb = two_texts pb /\ two_texts pa = Some before /\ NoDup (spawned C71_found).
Proof.
  set (w := schedule true insertion_sort default_config true false C71_rules [(9, 0); (2, 1); (50, 0); (50, 1)] (start two_texts (spawned C71_found))).
  exists (w_files w). split; [|split; [|split; [|split]]].
  - assert (E : snd (handle_processing_output (w_events w)) = 0) by (vm_compute; reflexivity). rewrite <- E.
    apply (p_run _ _ _ _ _ _ _ _ _ _ _ _ _ _ _ (mkLoaded (txt "1"%string) default_config) C71_rules w).
    + exact (C71_case_configuration true).
    + exact C71_case_rules.
    + reflexivity.
    + apply schedule_steps.
    + apply done_b_finished. vm_compute. reflexivity.
    + assert (N : forallb (fun p => match snd (file_task true insertion_sort default_config true false true C71_rules (two_texts p)) with Crash => false | _ => true end) (spawned C71_found) = true)
        by (vm_compute; reflexivity).
      rewrite forallb_forall in N. intros p Hp P. specialize (N p Hp). unfold task_panics in P. cbn [ld_config op_fix op_inspect] in P. rewrite P in N. discriminate N.
    + clear E. induction (w_events w) as [|e evs IH]; [apply il_done; repeat constructor|]. exact (il_step [] e evs [[]] evs IH).
  - apply opt_text_eqb_eq. vm_compute. reflexivity.
  - apply opt_text_eqb_eq. vm_compute. reflexivity.
  - apply opt_text_eqb_eq. vm_compute. reflexivity.
  - constructor; [intros [E|[]]; discriminate E|]. constructor; [intros []|constructor].
Qed.

Definition C71_clean : text := txt "{% block page %}
    <p>{{ name }}</p>
{% endblock %}
"%string.
Definition in_order_b (src : text) : bool :=
  match parse_src true src with
  | OK (t, []) => match run_rules default_config (get_file_active_rules (root_elem t) C71_rules) t with Done [] => true | _ => false end
  | _ => false
  end.
Lemma in_order_b_spec src : in_order_b src = true -> in_order true default_config C71_rules src src.
Proof.
  unfold in_order_b, in_order. destruct (parse_src true src) as [[t [|e es]]| |]; try discriminate.
  intros H. exists t, [], t. repeat split. destruct (run_rules default_config (get_file_active_rules (root_elem t) C71_rules) t) as [[|]|]; [reflexivity|discriminate H|discriminate H].
Qed.
(** A template in order, whatever the options. *)
Example C71_case_in_order : forall fix_opt inspect f' code,
  C71_program (mkOptions fix_opt false false inspect) C71_place [] true [WalkedFile pa] (fun _ => Some C71_clean) f' code ->
  code = 0 /\ f' pa = Some C71_clean.
Proof.
  intros fix_opt inspect f' code H.
  destruct (C71_templates_in_order_pass true insertion_sort PropConfig.some_toml PropConfig.plain_env PropConfig.no_number (txt "built in"%string) (txt "1"%string) (fun _ => true) (mkOptions fix_opt false false inspect) C71_place [] [WalkedFile pa] (fun _ => Some C71_clean)
    f' code (mkLoaded (txt "1"%string) default_config) C71_rules eq_refl) as [A B]; [..|exact H|split; [exact A|apply B]].
  - constructor; [intros []|constructor].
  - pose proof (C71_case_configuration false) as E. apply handled_inr in E. apply E.
  - exact C71_case_rules.
  - intros [E|[]]. discriminate E.
  - intros p _. exists C71_clean. split; [reflexivity|]. apply in_order_b_spec. vm_compute. reflexivity.
Qed.
(** One file that makes the parser panic: the whole run ends with exit code 101, though the other file is in order. *)
Example C71_case_panic : forall f' code,
  C71_program (mkOptions false false false false) C71_place [] true [WalkedFile pa; WalkedFile pb]
    (fun p => if text_eqb p pa then Some (txt "{{ (a,"%string) else Some C71_clean) f' code -> code = 101.
Proof.
  intros f' code H.
  eapply (C71_exit_code_101 true insertion_sort PropConfig.some_toml PropConfig.plain_env PropConfig.no_number (txt "built in"%string) (txt "1"%string) (fun _ => true) (mkOptions false false false false) C71_place [] _ _ f' code (mkLoaded (txt "1"%string) default_config) C71_rules eq_refl eq_refl); [..|exact H|].
  - constructor; [intros [E|[]]; discriminate E|]. constructor; [intros []|constructor].
  - pose proof (C71_case_configuration false) as E. apply handled_inr in E. apply E.
  - exact C71_case_rules.
  - exists pa, (txt "{{ (a,"%string). split; [now left|]. split; [reflexivity|]. intros r E. vm_compute in E. discriminate E.
Qed.

Print Assumptions C71_exit_code_zero_means_in_order.
Print Assumptions C71_templates_in_order_pass.
Print Assumptions C71_only_found_files_change.
Print Assumptions C71_no_configuration_no_run.
Print Assumptions C71_exit_code_101.
Print Assumptions C71_runs_agree.
Print Assumptions C71_the_program_can_always_finish.
