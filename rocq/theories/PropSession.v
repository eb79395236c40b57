(** Property theorems about whole runs: C47, C48 and C49. *)
From Coq Require Import NArith String Bool Lia Arith Wellfounded List Permutation.
Import ListNotations.
From Verif Require Import Text Kind ParserApi Machine Red Rule Rules Check Process Output Session DefaultConfig
  LexerProofs PropProcess PropOutput PropReport.
Local Open Scope list_scope.
Local Notation length := List.length (only parsing).

(** * What is meant *)

(** What a file holds when its task has been done, given what it held before and the effects the
    task has for that. *)
Definition outcome_of (before : option text) (effects : list effect) : option text :=
  match writes effects with
  | [] => before
  | c :: _ => Some c
  end.

(** * Facts about the effects of a task *)
Section Facts.
  Context (dbg : bool) (sort : list (text * suggestion) -> out (list (text * suggestion))) (cf : config).
  Context (fix_opt inspect : bool) (definitions : list rule) (write_ok : path -> bool).
  Notation effects := (task_effects dbg sort cf fix_opt inspect definitions write_ok).
  Notation act := (act dbg sort cf fix_opt inspect definitions write_ok).
  Notation step := (step dbg sort cf fix_opt inspect definitions write_ok).
  Notation steps := (steps dbg sort cf fix_opt inspect definitions write_ok).

  Definition plain (e : effect) : Prop := match e with ReadFile => False | _ => True end.

  Lemma task_form p read :
    exists l, effects p read = Send FileProcessed :: ReadFile :: l /\ Forall plain l.
  Proof.
    assert (A : forall i fc rs, Forall plain (produce_diagnostics i fc rs ++ [Send OutputStderrMessage])).
    { intros i fc rs. unfold produce_diagnostics. rewrite !Forall_app. repeat split.
      - destruct i; repeat constructor.
      - apply Forall_map, Forall_forall. intros; exact I.
      - apply Forall_map, Forall_forall. intros; exact I.
      - repeat constructor. }
    unfold task_effects, file_task, process_file. destruct read as [content|].
    - assert (B : Forall plain (fst (run_analysis dbg sort cf fix_opt inspect (write_ok p) definitions content))).
      { unfold run_analysis. destruct (parse_file dbg content) as [[t errs]|]; [|constructor].
        destruct (run_rules cf _ t) as [rs|]; [|constructor].
        destruct fix_opt; [|apply A].
        destruct (iteratively_apply_suggestions dbg sort cf _ rs) as [[[[fc' rs'] dirty] i]|e|];
          [|constructor|constructor].
        destruct dirty; [|apply A]. destruct (write_ok p); [constructor; [exact I|apply A]|repeat constructor]. }
      destruct (run_analysis dbg sort cf fix_opt inspect (write_ok p) definitions content) as [l o].
      cbn [fst] in B. destruct o as [[]|e|]; cbn [fst app].
      + exists l. split; [reflexivity|exact B].
      + exists (l ++ [Send (Report SError)]). split; [reflexivity|].
        apply Forall_app. split; [exact B|repeat constructor].
      + exists l. split; [reflexivity|exact B].
    - exists [Send (Report SError)]. split; [reflexivity|repeat constructor].
  Qed.

  Lemma one_write p read : length (writes (effects p read)) <= 1.
  Proof.
    unfold task_effects.
    destruct (file_task dbg sort cf fix_opt inspect (write_ok p) definitions read) as [l o] eqn:E. cbn [fst].
    destruct (C25_files_change_only_through_a_successful_fix dbg sort cf _ _ _ _ _ _ _ E)
      as [N|(content & t & errs & rs & fc' & rs' & i & _ & _ & _ & _ & _ & N)]; rewrite N; cbn; lia.
  Qed.

  (** * The invariant *)
  Lemma set_same f p c : set_file f p c p = Some c.
  Proof. unfold set_file. rewrite (proj2 (text_eqb_eq p p) eq_refl). reflexivity. Qed.
  Lemma set_other f p c q : p <> q -> set_file f p c q = f q.
  Proof.
    intros N. unfold set_file. destruct (text_eqb p q) eqn:E; [|reflexivity].
    apply text_eqb_eq in E. contradiction.
  Qed.

  (** The state of a file [now], the task's work and what it has sent, if the file was [before]. *)
  Definition task_inv (p : path) (before now : option text) (w : work) (s : list event) : Prop :=
    match w with
    | Waiting => now = before /\ s = []
    | Begun => now = before /\ s = [FileProcessed]
    | Doing l =>
      exists past, effects p before = Send FileProcessed :: ReadFile :: past ++ l /\
        s = FileProcessed :: sent past /\
        (writes past = [] /\ now = before \/
         exists c, writes past = [c] /\
           (now = Some c \/ write_ok p = false /\ (now = before \/ exists k, now = Some (firstn k c))))
    | Writing c k l =>
      exists past, effects p before = Send FileProcessed :: ReadFile :: past ++ WriteFile c :: l /\
        s = FileProcessed :: sent past /\ k <= length c /\ now = Some (firstn k c)
    end.

  Lemma effects_before_write p before past c l :
    effects p before = Send FileProcessed :: ReadFile :: past ++ WriteFile c :: l -> writes past = [].
  Proof.
    intros E. pose proof (one_write p before) as O. rewrite E in O.
    assert (W : writes (Send FileProcessed :: ReadFile :: past ++ WriteFile c :: l)
                = writes past ++ c :: writes l).
    { cbn [writes flat_map app]. apply writes_app. }
    rewrite W, app_length in O. cbn [length] in O. destruct (writes past); [reflexivity|cbn in O; lia].
  Qed.

  Lemma task_inv_act f p w w' f' new before s :
    act f p w w' f' new -> task_inv p before (f p) w s -> task_inv p before (f' p) w' (s ++ new).
  Proof.
    intros A I. destruct A as [|  |e l|c l|c k l K|c l O|c l O|c k l O]; cbn [task_inv] in *.
    - destruct I as [-> ->]. split; reflexivity.
    - destruct I as [E ->]. rewrite E. destruct (task_form p before) as (l & F & _). exists []. rewrite F.
      repeat split. left. split; reflexivity.
    - destruct I as (past & F & -> & D). exists (past ++ [Send e]). rewrite <- app_assoc. split; [exact F|].
      split; [rewrite sent_app; reflexivity|]. rewrite writes_app. cbn [writes flat_map]. rewrite !app_nil_r. exact D.
    - destruct I as (past & F & -> & D). exists past. split; [exact F|]. split; [apply app_nil_r|].
      split; [lia|]. rewrite set_same. reflexivity.
    - destruct I as (past & F & -> & L & D). exists past. split; [exact F|]. split; [apply app_nil_r|].
      split; [lia|]. rewrite set_same. reflexivity.
    - destruct I as (past & F & -> & L & D). exists (past ++ [WriteFile c]). rewrite <- app_assoc.
      split; [exact F|]. rewrite sent_app, writes_app. cbn. rewrite !app_nil_r. split; [reflexivity|].
      right. exists c. split; [rewrite (effects_before_write _ _ _ _ _ F); reflexivity|]. left.
      rewrite D, firstn_all. reflexivity.
    - destruct I as (past & F & -> & D). exists (past ++ [WriteFile c]). rewrite <- app_assoc.
      split; [exact F|]. rewrite sent_app, writes_app. cbn. rewrite !app_nil_r. split; [reflexivity|].
      pose proof (effects_before_write _ _ _ _ _ F) as W. rewrite W in *. right. exists c. split; [reflexivity|].
      right. split; [exact O|]. left. destruct D as [[_ D]|(c' & X & _)]; [exact D|discriminate].
    - destruct I as (past & F & -> & L & D). exists (past ++ [WriteFile c]). rewrite <- app_assoc.
      split; [exact F|]. rewrite sent_app, writes_app. cbn. rewrite !app_nil_r. split; [reflexivity|].
      right. exists c. split; [rewrite (effects_before_write _ _ _ _ _ F); reflexivity|].
      right. split; [exact O|]. right. exists k. exact D.
  Qed.

  Lemma act_elsewhere f p w w' f' new q : act f p w w' f' new -> p <> q -> f' q = f q.
  Proof. intros A N. destruct A; try reflexivity; apply set_other, N. Qed.

  Lemma interleaves_snoc l x r e es :
    interleaves (l ++ x :: r) es -> interleaves (l ++ (x ++ [e]) :: r) (es ++ [e]).
  Proof.
    remember (l ++ x :: r) as ess eqn:Q. intros H. revert l x r Q.
    induction H as [ess H|l0 e0 x0 r0 es H IH]; intros l x r Q.
    - subst ess. apply Forall_app in H as [Hl H]. inversion H as [|y z Hx Hr]; subst. cbn [app].
      apply (il_step l e [] r []). apply il_done. apply Forall_app. split; [exact Hl|constructor; [reflexivity|exact Hr]].
    - cbn [app]. destruct (Nat.lt_trichotomy (length l) (length l0)) as [L|[L|L]].
      + assert (X : exists m, l0 = l ++ x :: m /\ r = m ++ (e0 :: x0) :: r0).
        { clear - L Q. revert l0 L Q. induction l as [|a l IH]; intros [|b l0] L Q; cbn in *; try lia.
          - injection Q as -> <-. exists l0. split; reflexivity.
          - injection Q as -> Q. destruct (IH l0) as (m & -> & ->); [lia|exact Q|]. exists m. split; reflexivity. }
        destruct X as (m & -> & ->).
        replace (l ++ (x ++ [e]) :: m ++ (e0 :: x0) :: r0) with ((l ++ (x ++ [e]) :: m) ++ (e0 :: x0) :: r0)
          by (rewrite <- app_assoc; reflexivity).
        apply il_step. rewrite <- app_assoc. cbn [app]. apply IH. rewrite <- app_assoc. reflexivity.
      + assert (X : l0 = l /\ x = e0 :: x0 /\ r = r0).
        { clear - L Q. revert l0 L Q. induction l as [|a l IH]; intros [|b l0] L Q; cbn in *; try lia.
          - injection Q as <- ->. repeat split; reflexivity.
          - injection Q as -> Q. destruct (IH l0) as (-> & -> & ->); [lia|exact Q|]. repeat split; reflexivity. }
        destruct X as (-> & -> & ->). cbn [app]. apply il_step. apply IH. reflexivity.
      + assert (X : exists m, l = l0 ++ (e0 :: x0) :: m /\ r0 = m ++ x :: r).
        { clear - L Q. revert l0 L Q. induction l as [|a l IH]; intros [|b l0] L Q; cbn in *; try lia.
          - injection Q as <- ->. exists l. split; reflexivity.
          - injection Q as -> Q. destruct (IH l0) as (m & -> & ->); [lia|exact Q|]. exists m. split; reflexivity. }
        destruct X as (m & -> & ->).
        replace ((l0 ++ (e0 :: x0) :: m) ++ (x ++ [e]) :: r) with (l0 ++ (e0 :: x0) :: m ++ (x ++ [e]) :: r)
          by (rewrite <- app_assoc; reflexivity).
        apply il_step. replace (l0 ++ x0 :: m ++ (x ++ [e]) :: r) with ((l0 ++ x0 :: m) ++ (x ++ [e]) :: r)
          by (rewrite <- app_assoc; reflexivity).
        apply IH. rewrite <- app_assoc. reflexivity.
  Qed.

  Definition inv (f0 : files) (paths : list path) (w : world) : Prop :=
    map fst (w_tasks w) = paths /\
    (forall q, ~ In q paths -> w_files w q = f0 q) /\
    exists ss, Forall2 (fun t s => task_inv (fst t) (f0 (fst t)) (w_files w (fst t)) (snd t) s) (w_tasks w) ss /\
      interleaves ss (w_events w).

  Lemma inv_start f0 paths : inv f0 paths (start f0 paths).
  Proof.
    split; [|split].
    - cbn. rewrite map_map. apply map_id.
    - reflexivity.
    - exists (map (fun _ => []) paths). cbn [start w_tasks w_events w_files]. split.
      + induction paths as [|p ps IH]; cbn; constructor; [split; reflexivity|exact IH].
      + apply il_done. apply Forall_map, Forall_forall. reflexivity.
  Qed.

  Lemma inv_step f0 paths w w' : NoDup paths -> inv f0 paths w -> step w w' -> inv f0 paths w'.
  Proof.
    intros ND (P & O & ss & F & I) S. destruct S as [f l p x r es x' f' new A].
    cbn [w_files w_tasks w_events] in *. rewrite map_app in P. cbn [map fst] in P.
    assert (N : ~ In p (map fst l) /\ ~ In p (map fst r)).
    { rewrite <- P in ND. apply NoDup_remove_2 in ND. split; intros H; apply ND, in_or_app; auto. }
    split; [|split].
    - cbn [w_tasks]. rewrite map_app. exact P.
    - intros q Hq. cbn [w_files]. rewrite (act_elsewhere _ _ _ _ _ _ q A), (O q Hq); [reflexivity|].
      intros ->. apply Hq. rewrite <- P. apply in_or_app. right. left. reflexivity.
    - cbn [w_files w_tasks w_events]. apply Forall2_app_inv_l in F as (s1 & s2 & F1 & F2 & ->).
      inversion F2 as [|? s ? s3 T F3 E1 E2]; subst. cbn [fst snd] in T.
      assert (K : forall ts us, ~ In p (map fst ts) ->
        Forall2 (fun t s => task_inv (fst t) (f0 (fst t)) (f (fst t)) (snd t) s) ts us ->
        Forall2 (fun t s => task_inv (fst t) (f0 (fst t)) (f' (fst t)) (snd t) s) ts us).
      { intros ts us Hn H. induction H as [|t u ts us H HH IH]; [constructor|]. cbn in Hn. constructor.
        - rewrite (act_elsewhere _ _ _ _ _ _ (fst t) A); [exact H|]. intros E. apply Hn. left. symmetry. exact E.
        - apply IH. intros E. apply Hn. right. exact E. }
      exists (s1 ++ (s ++ new) :: s3). split.
      + apply Forall2_app; [apply K; [apply N|exact F1]|]. constructor; [|apply K; [apply N|exact F3]].
        cbn [fst snd]. eapply task_inv_act; eassumption.
      + destruct A; rewrite ?app_nil_r; try exact I; apply interleaves_snoc; exact I.
  Qed.

  Lemma inv_steps f0 paths w w' : NoDup paths -> inv f0 paths w -> steps w w' -> inv f0 paths w'.
  Proof. intros ND I S. induction S as [|w w1 w2 S IH St]; [exact I|]. eapply inv_step; [exact ND|apply IH; exact I|exact St]. Qed.

  Lemma inv_task f0 paths w p : inv f0 paths w -> In p paths ->
    exists x s, In (p, x) (w_tasks w) /\ task_inv p (f0 p) (w_files w p) x s.
  Proof.
    intros (P & _ & ss & F & _) Hp. rewrite <- P in Hp. apply in_map_iff in Hp as ([q x] & <- & Ht). cbn [fst].
    clear P. revert Ht. induction F as [|t s ts us H HH IH]; intros Ht; [destruct Ht|]. destruct Ht as [->|Ht].
    - exists x, s. split; [left; reflexivity|exact H].
    - destruct (IH Ht) as (y & u & Hy & Hu). exists y, u. split; [right; exact Hy|exact Hu].
  Qed.

  (** * C47 *)

  (** When a run over different files has come to its end, every file that can be written holds
      what its own task makes of its own old text, all other files hold what they held, and the
      reports are those of the tasks, each in its order. *)
  Theorem C47_files_are_handled_independently : forall f0 paths w,
    NoDup paths -> steps (start f0 paths) w -> finished w ->
    (forall p, In p paths -> write_ok p = true ->
       w_files w p = outcome_of (f0 p) (effects p (f0 p))) /\
    (forall p, ~ In p paths -> w_files w p = f0 p) /\
    interleaves (map (fun p => sent (effects p (f0 p))) paths) (w_events w).
  Proof.
    intros f0 paths w ND S Fin. pose proof (inv_steps _ _ _ _ ND (inv_start f0 paths) S) as I.
    split; [|split; [apply I|]].
    - intros p Hp OKp. destruct (inv_task _ _ _ _ I Hp) as (x & s & Hx & T).
      unfold finished in Fin. rewrite Forall_forall in Fin. specialize (Fin _ Hx). cbn in Fin. subst x.
      cbn [task_inv] in T. destruct T as (past & F & _ & D). rewrite app_nil_r in F.
      unfold outcome_of. rewrite F. change (writes (Send FileProcessed :: ReadFile :: past)) with (writes past).
      destruct D as [[-> ->]|(c & -> & D)]; [reflexivity|].
      destruct D as [->|[D _]]; [reflexivity|rewrite OKp in D; discriminate].
    - destruct I as (P & _ & ss & F & I). replace (map _ paths) with ss; [exact I|].
      rewrite <- P. clear I P S. unfold finished in Fin. induction F as [|[q x] s ts us T F IH]; [reflexivity|].
      inversion Fin as [|? ? Hx Hts]; subst. cbn [snd fst] in *. subst x. cbn [map fst].
      f_equal; [|apply IH; exact Hts]. destruct T as (past & E & -> & _). rewrite app_nil_r in E. rewrite E. reflexivity.
  Qed.

  (** So two runs that only differ in the order of steps agree. *)
  Theorem C47_schedules_agree : forall f0 paths w w',
    NoDup paths -> (forall p, In p paths -> write_ok p = true) ->
    steps (start f0 paths) w -> finished w -> steps (start f0 paths) w' -> finished w' ->
    (forall p, w_files w p = w_files w' p) /\
    handle_processing_output (w_events w) = handle_processing_output (w_events w').
  Proof.
    intros f0 paths w w' ND OKs S F S' F'.
    destruct (C47_files_are_handled_independently _ _ _ ND S F) as (A & B & C).
    destruct (C47_files_are_handled_independently _ _ _ ND S' F') as (A' & B' & C'). split.
    - intros p. destruct (in_dec (list_eq_dec N.eq_dec) p paths) as [H|H].
      + rewrite A, A' by auto. reflexivity.
      + rewrite B, B' by assumption. reflexivity.
    - eapply C28_scheduling_does_not_matter; eassumption.
  Qed.

  (** A run never gets stuck: as long as a task is not done some step is possible. *)
  Definition going (w : work) : Prop :=
    match w with
    | Doing l => Forall plain l
    | Writing c k l => k <= length c /\ Forall plain l
    | _ => True
    end.

  Lemma going_act f p w w' f' new : act f p w w' f' new -> going w -> going w'.
  Proof.
    intros A G. destruct A as [|  |e l|c l|c k l K|c l O|c l O|c k l O]; cbn in *; try exact I.
    - destruct (task_form p (f p)) as (l & E & H). rewrite E. exact H.
    - inversion G; assumption.
    - split; [lia|]. inversion G; assumption.
    - split; [lia|]. apply G.
    - apply G.
    - inversion G; assumption.
    - apply G.
  Qed.

  Lemma going_steps f0 paths w : steps (start f0 paths) w -> Forall (fun t => going (snd t)) (w_tasks w).
  Proof.
    remember (start f0 paths) as w0 eqn:E. intros S. induction S as [w|w w1 w2 S IH St].
    - subst. cbn. apply Forall_map, Forall_forall. intros; exact I.
    - specialize (IH E). destruct St as [f l p x r es x' f' new A]. cbn [w_tasks] in *.
      apply Forall_app in IH as [Hl H]. inversion H as [|? ? Hx Hr]; subst.
      apply Forall_app. split; [exact Hl|]. constructor; [|exact Hr]. cbn in *. eapply going_act; eassumption.
  Qed.

  Theorem C47_runs_can_always_go_on : forall f0 paths w,
    steps (start f0 paths) w -> finished w \/ exists w', step w w'.
  Proof.
    intros f0 paths w S. pose proof (going_steps _ _ _ S) as G. clear S.
    destruct w as [f ts es]. unfold finished. cbn [w_tasks] in *.
    assert (K : Forall (fun t : path * work => snd t = Doing []) ts \/
                exists l p x r x' f' new, ts = l ++ (p, x) :: r /\ act f p x x' f' new).
    { induction G as [|[p x] ts Hx G IH]; [left; constructor|].
      assert (A : x = Doing [] \/ exists x' f' new, act f p x x' f' new).
      { destruct x as [| |[|[e| |c] l]|c k l]; cbn in Hx.
        - right. do 3 eexists. apply a_begin.
        - right. do 3 eexists. apply a_read.
        - left. reflexivity.
        - right. do 3 eexists. apply a_send.
        - inversion Hx as [|? ? Pl _]; subst. destruct Pl.
        - right. do 3 eexists. apply a_open.
        - right. destruct Hx as [Hk _]. destruct (Nat.eq_dec k (length c)) as [->|N].
          + destruct (write_ok p) eqn:O; do 3 eexists; [apply a_close|apply a_failed]; exact O.
          + do 3 eexists. apply a_put. lia. }
      destruct A as [->|(x' & f' & new & A)].
      - destruct IH as [IH|(l & q & y & r & y' & f' & new & -> & A)].
        + left. constructor; [reflexivity|exact IH].
        + right. exists ((p, Doing []) :: l), q, y, r, y', f', new. split; [reflexivity|exact A].
      - right. exists [], p, x, ts, x', f', new. split; [reflexivity|exact A]. }
    destruct K as [K|(l & p & x & r & x' & f' & new & -> & A)]; [left; exact K|].
    right. eexists. apply step_task. exact A.
  Qed.

  (** And it comes to its end: there is no infinite sequence of steps, whatever the order. *)
  Definition fresh (w : work) : nat := match w with Waiting => 2 | Begun => 1 | _ => 0 end.
  Definition cost (e : effect) : nat := match e with WriteFile c => 3 + length c | _ => 1 end.
  Definition left_over (w : work) : nat :=
    match w with
    | Doing l => list_sum (map cost l)
    | Writing c k l => 1 + (length c - k) + list_sum (map cost l)
    | _ => 0
    end.
  Definition measure (w : world) : nat * nat :=
    (list_sum (map (fun t => fresh (snd t)) (w_tasks w)), list_sum (map (fun t => left_over (snd t)) (w_tasks w))).

  Lemma sum_mid (g : path * work -> nat) l t r :
    list_sum (map g (l ++ t :: r)) = list_sum (map g l) + (g t + list_sum (map g r)).
  Proof. rewrite map_app, list_sum_app. reflexivity. Qed.

  Theorem C47_every_run_ends : forall w, Acc (fun w' w => step w w') w.
  Proof.
    assert (M : forall n m w, fst (measure w) = n -> snd (measure w) = m -> Acc (fun w' w => step w w') w).
    { induction n as [n IHn] using (well_founded_induction lt_wf).
      induction m as [m IHm] using (well_founded_induction lt_wf).
      intros w E1 E2. constructor. intros w' S. destruct S as [f l p x r es x' f' new A].
      cbn [measure fst snd w_tasks] in *. rewrite sum_mid in E1, E2. cbn [snd] in *.
      assert (D : fresh x' < fresh x \/ fresh x' = fresh x /\ left_over x' < left_over x).
      { destruct A; cbn [fresh left_over]; cbn [map list_sum fold_right cost]; unfold list_sum;
          cbn [fold_right]; lia. }
      destruct D as [D|[D D']].
      - eapply IHn; [|reflexivity|reflexivity]. cbn [measure fst w_tasks]. rewrite sum_mid. cbn [snd]. lia.
      - eapply IHm; [| |reflexivity].
        + cbn [measure snd w_tasks]. rewrite sum_mid. cbn [snd]. lia.
        + cbn [measure fst w_tasks]. rewrite sum_mid. cbn [snd]. lia. }
    intros w. eapply M; reflexivity.
  Qed.

  (** * C48: what a killed run leaves behind *)

  (** At every moment of a run over different files, a file holds its old text, or the beginning of
      the text its own task writes; and it is cut only while its task is inside the write, or if
      the write fails. *)
  Theorem C48_only_files_being_written_can_be_damaged : forall f0 paths w,
    NoDup paths -> steps (start f0 paths) w ->
    forall p, w_files w p = f0 p \/
      exists c, In p paths /\ In (WriteFile c) (effects p (f0 p)) /\
        (w_files w p = Some c \/
         (exists k, w_files w p = Some (firstn k c)) /\
         (write_ok p = false \/ exists k l, In (p, Writing c k l) (w_tasks w))).
  Proof.
    intros f0 paths w ND S p. pose proof (inv_steps _ _ _ _ ND (inv_start f0 paths) S) as I.
    destruct (in_dec (list_eq_dec N.eq_dec) p paths) as [H|H]; [|left; apply I; exact H].
    destruct (inv_task _ _ _ _ I H) as (x & s & Hx & T).
    destruct x as [| |l|c k l]; cbn [task_inv] in T.
    - left. apply T.
    - left. apply T.
    - destruct T as (past & F & _ & [[_ D]|(c & W & D)]); [left; exact D|].
      assert (IW : In (WriteFile c) (effects p (f0 p))).
      { rewrite F. right. right. apply in_or_app. left. clear - W. induction past as [|e l IH]; [discriminate|].
        destruct e as [e| |c']; cbn in W; [right; apply IH, W|right; apply IH, W|]. injection W as -> _. left. reflexivity. }
      destruct D as [D|(O & [D|(k & D)])]; [right|left; exact D|right].
      + exists c. split; [exact H|]. split; [exact IW|]. left. exact D.
      + exists c. split; [exact H|]. split; [exact IW|]. right. split; [exists k; exact D|]. left. exact O.
    - destruct T as (past & F & _ & L & D). right. exists c. split; [exact H|]. split.
      { rewrite F. right. right. apply in_or_app. right. left. reflexivity. }
      right. split; [exists k; exact D|]. right. exists k, l. exact Hx.
  Qed.

  (** A file that its task does not fix is never touched. *)
  Theorem C48_files_without_fixes_are_never_touched : forall f0 paths w p,
    NoDup paths -> steps (start f0 paths) w ->
    (forall c, ~ In (WriteFile c) (effects p (f0 p))) -> w_files w p = f0 p.
  Proof.
    intros f0 paths w p ND S N.
    destruct (C48_only_files_being_written_can_be_damaged _ _ _ ND S p) as [E|(c & _ & W & _)]; [exact E|].
    destruct (N c W).
  Qed.
End Facts.

(** * Cases *)

(** A scheduler: the task with number [i] does its next step (all writes succeed). *)
Section Scheduler.
  Context (dbg : bool) (sort : list (text * suggestion) -> out (list (text * suggestion))) (cf : config).
  Context (fix_opt inspect : bool) (definitions : list rule).
  Notation effects := (task_effects dbg sort cf fix_opt inspect definitions (fun _ => true)).

  Definition next (f : files) (p : path) (w : work) : option (work * files * list event) :=
    match w with
    | Waiting => Some (Begun, f, [FileProcessed])
    | Begun => Some (Doing (skipn 2 (effects p (f p))), f, [])
    | Doing (Send e :: l) => Some (Doing l, f, [e])
    | Doing (WriteFile c :: l) => Some (Writing c 0 l, set_file f p [], [])
    | Doing _ => None
    | Writing c k l =>
      if Nat.ltb k (length c) then Some (Writing c (S k) l, set_file f p (firstn (S k) c), [])
      else if Nat.eqb k (length c) then Some (Doing l, f, []) else None
    end.
  Lemma next_act f p w w' f' new : next f p w = Some (w', f', new) ->
    act dbg sort cf fix_opt inspect definitions (fun _ => true) f p w w' f' new.
  Proof.
    destruct w as [| |[|[e| |c] l]|c k l]; cbn [next]; intros E; try discriminate.
    - injection E as <- <- <-. constructor.
    - injection E as <- <- <-. constructor.
    - injection E as <- <- <-. constructor.
    - injection E as <- <- <-. constructor.
    - destruct (Nat.ltb k (length c)) eqn:L.
      + injection E as <- <- <-. constructor. apply Nat.ltb_lt, L.
      + destruct (Nat.eqb k (length c)) eqn:Q; [|discriminate]. injection E as <- <- <-.
        apply Nat.eqb_eq in Q. subst k. constructor. reflexivity.
  Qed.

  Definition next_of (i : nat) (w : world) : world :=
    match nth_error (w_tasks w) i with
    | Some (p, x) =>
      match next (w_files w) p x with
      | Some (x', f', new) =>
        mkWorld f' (firstn i (w_tasks w) ++ (p, x') :: skipn (S i) (w_tasks w)) (w_events w ++ new)
      | None => w
      end
    | None => w
    end.
  (** [n] steps of task [i], for each pair in turn *)
  Definition schedule (l : list (nat * nat)) (w : world) : world :=
    fold_left (fun w ni => Nat.iter (fst ni) (next_of (snd ni)) w) l w.

  Notation steps := (steps dbg sort cf fix_opt inspect definitions (fun _ => true)).

  Lemma next_of_steps i w0 w : steps w0 w -> steps w0 (next_of i w).
  Proof.
    intros H. unfold next_of. destruct (nth_error (w_tasks w) i) as [[p x]|] eqn:E; [|exact H].
    destruct (next (w_files w) p x) as [[[x' f'] new]|] eqn:N; [|exact H].
    eapply steps_more; [exact H|].
    assert (T : w_tasks w = firstn i (w_tasks w) ++ (p, x) :: skipn (S i) (w_tasks w)).
    { clear - E. revert i E. induction (w_tasks w) as [|t ts IH]; intros [|i] E; cbn in *; try discriminate.
      - injection E as ->. reflexivity.
      - f_equal. apply IH, E. }
    destruct w as [f ts es]. cbn [w_tasks w_files w_events] in *. rewrite T at 1.
    apply step_task. apply next_act, N.
  Qed.
  Lemma schedule_steps l w : steps w (schedule l w).
  Proof.
    unfold schedule. assert (G : forall w0, steps w0 w ->
      steps w0 (fold_left (fun w ni => Nat.iter (fst ni) (next_of (snd ni)) w) l w)).
    { revert w. induction l as [|[n i] l IH]; intros w w0 H; [exact H|]. cbn [fold_left fst snd]. apply IH.
      induction n as [|n IHn]; [exact H|]. cbn [Nat.iter nat_rect]. apply next_of_steps, IHn. }
    apply G. constructor.
  Qed.
End Scheduler.

Local Open Scope string_scope.
Definition pa : path := txt "a.twig".
Definition pb : path := txt "b.twig".
Definition before : text := txt "{{ a && b }}{{ 'x' }}".
Definition after : text := txt "{{ a and b }}{{ 'x' }}".
Definition two_texts : files := fun p =>
  if text_eqb p pa then Some before else if text_eqb p pb then Some (txt "<p>b</p>") else None.
Definition done_b (t : path * work) : bool := match snd t with Doing [] => true | _ => false end.
Lemma done_b_finished w : forallb done_b (w_tasks w) = true -> finished w.
Proof.
  intros H. apply Forall_forall. intros [p x] Hx. rewrite forallb_forall in H. specialize (H _ Hx). cbn in H.
  destruct x as [| |[|]|]; try discriminate. reflexivity.
Qed.
Definition default_schedule := schedule true insertion_sort default_config true false RULE_DEFINITIONS.

Definition opt_text_eqb (a b : option text) : bool :=
  match a, b with Some x, Some y => text_eqb x y | None, None => true | _, _ => false end.
Lemma opt_text_eqb_eq a b : opt_text_eqb a b = true -> a = b.
Proof. destruct a, b; cbn; try discriminate; try reflexivity. intros H. f_equal. apply text_eqb_eq, H. Qed.

(** Two files: the second is read while the first is half written.  The run ends, the first file
    is fixed, the second is as it was. *)
Example C47_case :
  let w := default_schedule [(9, 0); (2, 1); (50, 0); (50, 1)] (start two_texts [pa; pb]) in
  NoDup [pa; pb] /\ finished w /\ w_files w pa = Some after /\ w_files w pb = two_texts pb.
Proof.
  cbv zeta. split; [|split; [|split]].
  - constructor; [intros [E|[]]; discriminate E|]. constructor; [intros []|constructor].
  - apply done_b_finished. vm_compute. reflexivity.
  - apply opt_text_eqb_eq. vm_compute. reflexivity.
  - apply opt_text_eqb_eq. vm_compute. reflexivity.
Qed.

(** The same run, killed in between: the first file is cut, its task is inside the write. *)
Example C48_case :
  let w := default_schedule [(9, 0); (2, 1)] (start two_texts [pa; pb]) in
  w_files w pa = Some (txt "{{ a a") /\ w_files w pb = two_texts pb /\
  In (WriteFile after) (task_effects true insertion_sort default_config true false RULE_DEFINITIONS (fun _ => true)
                          pa (two_texts pa)).
Proof.
  cbv zeta. split; [|split].
  - apply opt_text_eqb_eq. vm_compute. reflexivity.
  - apply opt_text_eqb_eq. vm_compute. reflexivity.
  - vm_compute. right; right; left. reflexivity.
Qed.

(** * C49: a file that is given twice *)

(** In full: also if a file is found twice on the command line (say the directory and a file in
    it), at the end it holds what its task makes of its text.  Refuted: the second task can read
    the file while the first has written a part of it, fix that part and write it back. *)
Theorem C49_files_given_twice_are_safe_refuted :
  ~ (forall dbg sort cf fix_opt inspect definitions write_ok f0 paths w p,
       steps dbg sort cf fix_opt inspect definitions write_ok (start f0 paths) w -> finished w ->
       In p paths -> write_ok p = true ->
       w_files w p = outcome_of (f0 p) (task_effects dbg sort cf fix_opt inspect definitions write_ok p (f0 p))).
Proof.
  intros H.
  set (w := default_schedule [(21, 0); (2, 1); (50, 0); (50, 1)] (start two_texts [pa; pa])).
  specialize (H true insertion_sort default_config true false RULE_DEFINITIONS (fun _ => true) two_texts
                [pa; pa] w pa (schedule_steps _ _ _ _ _ _ _ _)).
  assert (F : finished w). { apply done_b_finished. vm_compute. reflexivity. }
  specialize (H F (or_introl eq_refl) eq_refl).
  apply (f_equal (fun o => opt_text_eqb o (Some after))) in H. vm_compute in H. discriminate H.
Qed.

(** Without --fix no file is changed, however often it is given.  Missing: a run with --fix in
    which a file is given twice. *)
Theorem C49_files_given_twice_are_safe_partial :
  forall dbg sort cf inspect definitions write_ok f0 paths w p,
  steps dbg sort cf false inspect definitions write_ok (start f0 paths) w -> w_files w p = f0 p.
Proof.
  intros dbg sort cf inspect definitions write_ok f0 paths w p S.
  assert (N : forall q read, writes (task_effects dbg sort cf false inspect definitions write_ok q read) = []).
  { intros q read. unfold task_effects.
    destruct (file_task dbg sort cf false inspect (write_ok q) definitions read) as [l o] eqn:E. cbn [fst].
    destruct (C25_files_change_only_through_a_successful_fix dbg sort cf _ _ _ _ _ _ _ E)
      as [H|(content & t & errs & rs & fc' & rs' & i & F & _)]; [exact H|discriminate F]. }
  set (quiet := fun x => match x with Doing l => writes l = [] | Writing _ _ _ => False | _ => True end).
  assert (G : (forall q, w_files w q = f0 q) /\ Forall (fun t => quiet (snd t)) (w_tasks w)).
  { remember (start f0 paths) as w0 eqn:E. induction S as [w|w w1 w2 S IH St].
    - subst. split; [reflexivity|]. cbn. apply Forall_map, Forall_forall. intros; exact I.
    - destruct (IH E) as [IF IT]. destruct St as [f l q x r es x' f' new A]. cbn [w_tasks w_files] in *.
      apply Forall_app in IT as [Hl H]. inversion H as [|? ? Hx Hr]; subst. cbn [snd] in Hx.
      assert (K : f' = f /\ quiet x').
      { destruct A as [|  |e m|c m|c k m K|c m O|c m O|c k m O]; cbn in Hx |- *; try contradiction; try discriminate.
        - split; [reflexivity|exact I].
        - split; [reflexivity|]. specialize (N q (f q)).
          destruct (task_effects dbg sort cf false inspect definitions write_ok q (f q)) as [|a [|b m]]; try reflexivity.
          cbn [skipn]. cbn [writes flat_map] in N. apply app_eq_nil in N as [_ N].
          apply app_eq_nil in N as [_ N]. exact N.
        - split; [reflexivity|exact Hx]. }
      destruct K as [-> K]. split; [exact IF|]. apply Forall_app. split; [exact Hl|]. constructor; [exact K|exact Hr]. }
  apply G.
Qed.
(** The same file twice, without --fix. *)
Example C49_case :
  let w := schedule true insertion_sort default_config false false RULE_DEFINITIONS
             [(9, 0); (50, 1); (50, 0)] (start two_texts [pa; pa]) in
  finished w /\ w_files w pa = Some before /\ length (w_events w) = 6.
Proof.
  cbv zeta. split; [|split].
  - apply done_b_finished. vm_compute. reflexivity.
  - apply opt_text_eqb_eq. vm_compute. reflexivity.
  - vm_compute. reflexivity.
Qed.

Print Assumptions C47_files_are_handled_independently.
Print Assumptions C47_schedules_agree.
Print Assumptions C47_runs_can_always_go_on.
Print Assumptions C47_every_run_ends.
Print Assumptions C48_only_files_being_written_can_be_damaged.
Print Assumptions C48_files_without_fixes_are_never_touched.
Print Assumptions C49_files_given_twice_are_safe_refuted.
Print Assumptions C49_files_given_twice_are_safe_partial.
