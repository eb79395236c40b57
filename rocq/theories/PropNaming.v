(** Property theorems about naming conventions: C30, C31, C32. *)
From Coq Require Import NArith String Bool Lia Arith List.
Import ListNotations.
From Verif Require Import Text Naming.
Local Open Scope list_scope.
Local Notation length := List.length (only parsing).

(** * What the conventions mean *)

(** Words joined by a separator. *)
Fixpoint join (sep : N) (ws : list text) : text :=
  match ws with
  | [] => []
  | [w] => w
  | w :: ws' => w ++ sep :: join sep ws'
  end.

Definition lower (c : N) : Prop := (97 <= c <= 122)%N.
Definition upper (c : N) : Prop := (65 <= c <= 90)%N.
Definition digit (c : N) : Prop := (48 <= c <= 57)%N.
Definition underline : N := 95.
Definition minus : N := 45.

Definition word (letter : N -> Prop) (w : text) : Prop :=
  w <> [] /\ Forall (fun c => letter c \/ digit c) w.

(** snake_case: words of lowercase letters and digits with single underlines in between;
    the screaming variant has uppercase letters. *)
Definition snake_case (screaming : bool) (s : text) : Prop :=
  exists ws, s = join underline ws /\ Forall (word (if screaming then upper else lower)) ws.

(** kebab-case: words of lowercase letters and digits with single minus in between; the first
    word can be prefixed by one of the characters : @ # or be only that character. *)
Definition kebab_first (w : text) : Prop :=
  w <> [] /\ exists p w', w = p ++ w' /\ Forall (fun c => lower c \/ digit c) w' /\
    (p = [] \/ exists c, p = [c] /\ (c = 58 \/ c = 64 \/ c = 35)%N).
Definition kebab_case (s : text) : Prop :=
  s = [] \/ exists w ws, s = join minus (w :: ws) /\ kebab_first w /\ Forall (word lower) ws.

(** * Character classes *)

Lemma lower_iff : forall c, is_lower_ascii c = true <-> lower c.
Proof. intros c. unfold is_lower_ascii, in_range, lower. rewrite andb_true_iff, !N.leb_le. tauto. Qed.
Lemma upper_iff : forall c, is_upper_ascii c = true <-> upper c.
Proof. intros c. unfold is_upper_ascii, in_range, upper. rewrite andb_true_iff, !N.leb_le. tauto. Qed.
Lemma digit_iff : forall c, is_digit_ascii c = true <-> digit c.
Proof. intros c. unfold is_digit_ascii, in_range, digit. rewrite andb_true_iff, !N.leb_le. tauto. Qed.
Lemma case_iff : forall scr c, is_case scr c = true <-> (if scr then upper else lower) c.
Proof. intros []; [exact upper_iff|exact lower_iff]. Qed.

Ltac chars := repeat match goal with
  | H : is_lower_ascii _ = true |- _ => apply lower_iff in H
  | H : is_upper_ascii _ = true |- _ => apply upper_iff in H
  | H : is_digit_ascii _ = true |- _ => apply digit_iff in H
  | H : N.eqb _ _ = true |- _ => apply N.eqb_eq in H
  | H : N.eqb _ _ = false |- _ => apply N.eqb_neq in H
  end; unfold lower, upper, digit, c_under, c_minus, underline, minus in *.

Lemma join_cons : forall sep w v ws, join sep (w :: v :: ws) = w ++ sep :: join sep (v :: ws).
Proof. reflexivity. Qed.

Lemma join_head : forall sep c w ws, exists s, join sep ((c :: w) :: ws) = c :: s.
Proof. intros sep c w [|v ws]; cbn [join app]; eauto. Qed.

(** * Validity tests *)

(** The common part of both tests. *)
Section Loop.
  Context (sep : N) (is_letter : N -> bool) (letter : N -> Prop).
  Context (letter_iff : forall c, is_letter c = true <-> letter c).
  Context (not_sep : forall c, letter c \/ digit c -> c <> sep).

  Fixpoint loop (first : bool) (s : text) : bool :=
    match s with
    | [] => true
    | c :: r =>
      if (first || is_none r) && N.eqb c sep then false
      else if negb (is_letter c) && negb (is_digit_ascii c) && negb (N.eqb c sep) then false
      else if next_is (fun n => N.eqb c sep && N.eqb n sep) r then false
      else loop false r
    end.

  Definition joined (s : text) : Prop := exists ws, s = join sep ws /\ Forall (word letter) ws.

  Lemma is_word : forall c, negb (is_letter c) && negb (is_digit_ascii c) = false <-> letter c \/ digit c.
  Proof.
    intros c. rewrite andb_false_iff, !negb_false_iff, letter_iff, digit_iff. tauto.
  Qed.

  Lemma loop_tail : forall n s, length s <= n -> loop false s = true ->
    forall p, (p <> [] -> word letter p) -> p <> [] -> joined (p ++ s).
  Proof.
    induction n as [|n IH]; intros s Hl H p Hp Hne.
    - destruct s; [|cbn in Hl; lia]. rewrite app_nil_r. exists [p]. split; [reflexivity|]. constructor; auto.
    - destruct s as [|c r].
      { rewrite app_nil_r. exists [p]. split; [reflexivity|]. constructor; auto. }
      cbn [loop orb length] in *.
      destruct (is_none r && N.eqb c sep) eqn:E1; [discriminate|].
      destruct (negb (is_letter c) && negb (is_digit_ascii c) && negb (N.eqb c sep)) eqn:E2; [discriminate|].
      destruct (next_is _ r) eqn:E3; [discriminate|].
      destruct (N.eqb c sep) eqn:Ec.
      + apply N.eqb_eq in Ec. subst c. destruct r as [|d r]; [discriminate|].
        cbn [next_is andb] in E3. cbn [loop orb] in H.
        destruct (is_none r && N.eqb d sep); [discriminate|].
        rewrite E3 in H. cbn [negb] in H. rewrite andb_true_r in H.
        destruct (negb (is_letter d) && negb (is_digit_ascii d)) eqn:E4; [discriminate|].
        destruct (next_is _ r); [discriminate|].
        apply is_word in E4.
        destruct (IH r) with (p := [d]) as (ws & Hws & HF); auto; [cbn in Hl; lia| |discriminate|].
        { intros _. split; [discriminate|]. constructor; [exact E4|constructor]. }
        cbn [app] in Hws. destruct ws as [|w ws]; [discriminate|].
        exists (p :: w :: ws). split; [|constructor; auto]. rewrite join_cons, <- Hws. reflexivity.
      + replace (p ++ c :: r) with ((p ++ [c]) ++ r) by (rewrite <- app_assoc; reflexivity).
        cbn [negb] in E2. rewrite andb_true_r in E2. apply is_word in E2.
        apply IH; auto; [lia| |destruct p; discriminate]. intros _. destruct (Hp Hne) as [Hp1 Hp2].
        split; [destruct p; discriminate|].
        apply Forall_app. split; [exact Hp2|]. constructor; [exact E2|constructor].
  Qed.

  Lemma loop_word : forall w s, Forall (fun c => letter c \/ digit c) w ->
    loop false s = true -> loop false (w ++ s) = true.
  Proof.
    intros w s H Hs. induction H as [|c w Hc Hw IH]; [exact Hs|]. cbn [app loop orb].
    replace (N.eqb c sep) with false by (symmetry; apply N.eqb_neq; auto). rewrite andb_false_r.
    cbn [andb negb]. rewrite andb_true_r. rewrite (proj2 (is_word c) Hc).
    destruct (next_is _ (w ++ s)) eqn:E; [|exact IH]. destruct (w ++ s); discriminate.
  Qed.

  Lemma loop_sep : forall w ws, Forall (word letter) (w :: ws) ->
    loop false (join sep (w :: ws)) = true -> loop false (sep :: join sep (w :: ws)) = true.
  Proof.
    intros v ws Hws IH. inversion Hws as [|v' ws' Hv _]; subst. destruct Hv as [Hv1 Hv2].
    destruct v as [|d v]; [contradiction|]. inversion Hv2 as [|d' v' Hd Hv2']; subst.
    destruct (join_head sep d v ws) as (s' & Es). unfold text in *. rewrite Es in IH. rewrite Es.
    remember (d :: s') as s eqn:Ed. cbn [loop orb]. rewrite N.eqb_refl. cbn [negb].
    rewrite !andb_false_r. replace (is_none s) with false by (now rewrite Ed). cbn [andb].
    destruct (next_is _ s) eqn:En; [|exact IH]. rewrite Ed in En. cbn [next_is andb] in En.
    apply N.eqb_eq in En. exfalso. eapply not_sep; eauto.
  Qed.

  Lemma loop_join : forall ws w, Forall (word letter) (w :: ws) -> loop false (join sep (w :: ws)) = true.
  Proof.
    induction ws as [|v ws IH]; intros w H; inversion H as [|w' ws' Hw Hws]; subst.
    - cbn [join]. rewrite <- (app_nil_r w). apply loop_word; [apply Hw|reflexivity].
    - rewrite join_cons. apply loop_word; [apply Hw|]. apply loop_sep; auto.
  Qed.

  Lemma loop_iff : forall s, loop true s = true <-> joined s.
  Proof.
    intros s. split.
    - destruct s as [|c r]; [exists []; split; [reflexivity|constructor]|]. cbn [loop orb].
      destruct (N.eqb c sep) eqn:E1; [discriminate|]. cbn [andb negb]. rewrite andb_true_r.
      destruct (negb (is_letter c) && negb (is_digit_ascii c)) eqn:E2; [discriminate|]. apply is_word in E2.
      destruct (next_is _ r); [discriminate|]. intros H.
      apply (loop_tail (length r) r (le_n _) H [c]); [|discriminate]. intros _. split; [discriminate|].
      constructor; [exact E2|constructor].
    - intros (ws & -> & H). destruct ws as [|w ws]; [reflexivity|].
      pose proof (loop_join ws w H) as HL. inversion H as [|w' ws' [Hw1 Hw2] _]; subst.
      destruct w as [|c w]; [contradiction|]. inversion Hw2 as [|d' v' Hd Hv2']; subst.
      destruct (join_head sep c w ws) as (s' & Es). unfold text in *. rewrite Es in HL. rewrite Es.
      cbn [loop orb] in *. replace (N.eqb c sep) with false in * by (symmetry; apply N.eqb_neq; auto).
      cbn [andb negb] in *. rewrite andb_false_r in HL. exact HL.
  Qed.
End Loop.

Lemma snake_loop_eq : forall scr s first, snake_loop scr first s = loop c_under (is_case scr) first s.
Proof. intros scr. induction s as [|c r IH]; intros first; [reflexivity|]. cbn [snake_loop loop]. now rewrite IH. Qed.

Lemma snake_iff : forall scr s, is_valid_ascii_alpha_snake_case s scr = true <-> snake_case scr s.
Proof.
  intros scr s. unfold is_valid_ascii_alpha_snake_case. rewrite snake_loop_eq.
  apply loop_iff; [apply case_iff|].
  intros c H. destruct scr; chars; lia.
Qed.

Lemma kebab_loop_eq : forall s, kebab_loop false s = loop c_minus is_lower_ascii false s.
Proof.
  induction s as [|c r IH]; [reflexivity|]. cbn [kebab_loop loop]. rewrite IH, !negb_orb. reflexivity.
Qed.

Lemma kebab_sep : forall c, lower c \/ digit c -> c <> minus.
Proof. intros c H. chars. lia. Qed.

Lemma kebab_prefix_iff : forall c, kebab_prefix c = true <-> (c = 58 \/ c = 64 \/ c = 35)%N.
Proof. intros c. unfold kebab_prefix. rewrite !orb_true_iff, !N.eqb_eq. tauto. Qed.

Lemma kebab_iff : forall s, is_valid_alphanumeric_kebab_case s = true <-> kebab_case s.
Proof.
  intros s. unfold is_valid_alphanumeric_kebab_case. split.
  - destruct s as [|c r]; [now left|]. cbn [kebab_loop orb]. intros H.
    destruct (N.eqb c c_minus) eqn:E1; [discriminate|]. cbn [andb] in H.
    destruct (negb _) eqn:E2; [discriminate|]. apply negb_false_iff in E2.
    destruct (next_is _ r) eqn:E3; [discriminate|]. rewrite kebab_loop_eq in H. right.
    destruct (is_lower_ascii c || is_digit_ascii c) eqn:E4.
    + rewrite orb_true_iff, lower_iff, digit_iff in E4.
      destruct (loop_tail c_minus _ lower lower_iff (length r) r (le_n _) H [c]) as (ws & E & Hw).
      { intros _. split; [discriminate|]. constructor; [exact E4|constructor]. }
      { discriminate. }
      destruct ws as [|w ws]; [discriminate|]. inversion Hw as [|w' ws' [Hw1 Hw2] Hws]; subst.
      exists w, ws. split; [exact E|]. split; [|exact Hws]. split; [exact Hw1|].
      exists [], w. repeat split; auto.
    + cbn [orb] in E2. destruct r as [|d r].
      { exists [c], []. split; [reflexivity|]. split; [|constructor]. split; [discriminate|].
        exists [c], []. split; [reflexivity|]. split; [constructor|]. right. exists c. split; [reflexivity|].
        now apply kebab_prefix_iff. }
      apply kebab_prefix_iff in E2. cbn [loop orb] in H.
      destruct (is_none r && N.eqb d c_minus) eqn:F1; [discriminate|].
      destruct (negb (is_lower_ascii d) && negb (is_digit_ascii d) && negb (N.eqb d c_minus)) eqn:F2; [discriminate|].
      destruct (next_is (fun n => N.eqb d c_minus && N.eqb n c_minus) r) eqn:F3; [discriminate|].
      destruct (N.eqb d c_minus) eqn:Ed.
      * apply N.eqb_eq in Ed. subst d. destruct r as [|e r]; [discriminate|].
        assert (He : lower e \/ digit e /\ True).
        { cbn [next_is andb] in F3. change (N.eqb c_minus c_minus) with true in F3. cbn [andb] in F3.
          cbn [loop orb] in H. rewrite F3 in H. rewrite andb_false_r in H. cbn [negb] in H. rewrite andb_true_r in H.
          destruct (negb (is_lower_ascii e) && negb (is_digit_ascii e)) eqn:F4; [discriminate|].
          apply (is_word _ lower lower_iff) in F4. tauto. }
        assert (H' : loop c_minus is_lower_ascii false r = true).
        { cbn [loop orb] in H. destruct (is_none r && N.eqb e c_minus); [discriminate|].
          destruct (negb (is_lower_ascii e) && negb (is_digit_ascii e) && negb (N.eqb e c_minus)); [discriminate|].
          destruct (next_is _ r); [discriminate|exact H]. }
        destruct (loop_tail c_minus _ lower lower_iff (length r) r (le_n _) H' [e]) as (ws & E & Hw).
        { intros _. split; [discriminate|]. constructor; [tauto|constructor]. }
        { discriminate. }
        destruct ws as [|w ws]; [discriminate|].
        exists [c], (w :: ws). rewrite join_cons. change minus with c_minus. rewrite <- E. split; [reflexivity|]. split; [|exact Hw].
        split; [discriminate|]. exists [c], []. split; [reflexivity|]. split; [constructor|]. right. eauto.
      * cbn [negb] in F2. rewrite andb_true_r in F2. apply (is_word _ lower lower_iff) in F2.
        destruct (loop_tail c_minus _ lower lower_iff (length r) r (le_n _) H [d]) as (ws & E & Hw).
        { intros _. split; [discriminate|]. constructor; [tauto|constructor]. }
        { discriminate. }
        destruct ws as [|w ws]; [discriminate|]. inversion Hw as [|w' ws' [Hw1 Hw2] Hws]; subst.
        exists (c :: w), ws. split.
        { change (c :: d :: r) with (c :: ([d] ++ r)). rewrite E. now destruct ws. }
        split; [|exact Hws]. split; [discriminate|]. exists [c], w. split; [reflexivity|]. split; [exact Hw2|].
        right. eauto.
  - intros [->|(w & ws & -> & (Hne & p & w' & -> & Hw' & Hp) & Hws)]; [reflexivity|].
    assert (Ht : forall v, Forall (fun c => lower c \/ digit c) v ->
      loop c_minus is_lower_ascii false (join minus (v :: ws)) = true).
    { intros v Hv. destruct ws as [|u ws].
      - cbn [join]. rewrite <- (app_nil_r v). apply (loop_word _ _ lower lower_iff kebab_sep); auto.
      - rewrite join_cons. apply (loop_word _ _ lower lower_iff kebab_sep); [exact Hv|].
        apply (loop_sep _ _ lower kebab_sep); [exact Hws|].
        apply (loop_join _ _ lower lower_iff kebab_sep). exact Hws. }
    destruct Hp as [->|(c & -> & Hc)].
    + cbn [app] in *. destruct w' as [|c w']; [contradiction|]. specialize (Ht (c :: w') Hw').
      inversion Hw' as [|? ? Hc Hw'']; subst.
      destruct (join_head minus c w' ws) as (s' & Es). unfold text in *. rewrite Es in Ht. rewrite Es.
      cbn [kebab_loop loop orb] in *.
      pose proof (kebab_sep _ Hc) as Hm. apply N.eqb_neq in Hm. change minus with c_minus in Hm. rewrite Hm in *.
      rewrite andb_false_r in Ht. cbn [andb negb] in *. rewrite andb_true_r in Ht.
      rewrite (proj2 (is_word _ lower lower_iff c) Hc) in Ht.
      replace (is_lower_ascii c || is_digit_ascii c || kebab_prefix c) with true.
      * cbn [negb]. rewrite kebab_loop_eq. exact Ht.
      * symmetry. rewrite !orb_true_iff, lower_iff, digit_iff. tauto.
    + cbn [app] in *. specialize (Ht w' Hw').
      assert (Ej : join minus ((c :: w') :: ws) = c :: join minus (w' :: ws)) by (destruct ws; reflexivity).
      unfold text in *. rewrite Ej. cbn [kebab_loop orb].
      replace (N.eqb c c_minus) with false by (symmetry; apply N.eqb_neq; chars; lia). cbn [andb].
      rewrite (proj2 (kebab_prefix_iff c) Hc), !orb_true_r. cbn [negb]. rewrite kebab_loop_eq.
      destruct (next_is _ _) eqn:En; [|exact Ht]. destruct (join minus (w' :: ws)); discriminate.
Qed.

(** * Suggestions *)

Definition separator (c : N) : bool := N.eqb c minus || N.eqb c underline.

(** The characters of a name other than its separators. *)
Definition letters (s : text) : text := filter (fun c => negb (separator c)) s.

(** The same letter up to case. *)
Definition same_letter (c d : N) : Prop :=
  c = d \/ (upper c /\ d = c + 32)%N \/ (lower c /\ d = c - 32)%N.

Lemma same_to_lower : forall c, same_letter c (to_lower_ascii c).
Proof.
  intros c. unfold to_lower_ascii. destruct (is_upper_ascii c) eqn:E; [|now left].
  right. left. split; [now apply upper_iff|reflexivity].
Qed.
Lemma same_to_case : forall scr c, same_letter c (to_case scr c).
Proof.
  intros [] c; [|apply same_to_lower]. cbn. unfold to_upper_ascii. destruct (is_lower_ascii c) eqn:E; [|now left].
  right. right. split; [now apply lower_iff|reflexivity].
Qed.

Lemma to_lower_sep : forall c, separator (to_lower_ascii c) = separator c.
Proof.
  intros c. unfold to_lower_ascii. destruct (is_upper_ascii c) eqn:E; [|reflexivity]. chars.
  unfold separator. rewrite eq_iff_eq_true, !orb_true_iff, !N.eqb_eq. chars. lia.
Qed.
Lemma to_case_sep : forall scr c, separator (to_case scr c) = separator c.
Proof.
  intros [] c; [|apply to_lower_sep]. cbn. unfold to_upper_ascii. destruct (is_lower_ascii c) eqn:E; [|reflexivity]. chars.
  unfold separator. rewrite eq_iff_eq_true, !orb_true_iff, !N.eqb_eq. chars. lia.
Qed.

Lemma letters_cons : forall c s, letters (c :: s) = if separator c then letters s else c :: letters s.
Proof. intros c s. unfold letters. cbn [filter]. now destruct (separator c). Qed.

Lemma make_snake_letters : forall scr s first,
  Forall2 same_letter (letters s) (letters (make_snake scr first s)).
Proof.
  intros scr. induction s as [|c r IH]; intros first; [constructor|].
  cbn [make_snake]. change (N.eqb c c_minus || N.eqb c c_under) with (separator c).
  rewrite letters_cons.
  destruct ((first || is_none r) && separator c) eqn:E1.
  { apply andb_true_iff in E1. destruct E1 as [_ E1]. rewrite E1. apply IH. }
  destruct (first && is_upper_ascii c) eqn:E2.
  { rewrite letters_cons, to_case_sep.
    destruct (separator c); [apply IH|]. constructor; [apply same_to_case|apply IH]. }
  destruct (separator c && next_is next_places r) eqn:E3.
  { apply andb_true_iff in E3. destruct E3 as [E3 _]. rewrite E3. apply IH. }
  destruct (N.eqb c c_minus) eqn:E4.
  { rewrite letters_cons. apply N.eqb_eq in E4. subst c. apply IH. }
  assert (H : Forall2 same_letter (if separator c then letters r else c :: letters r)
                (letters (to_case scr c :: make_snake scr false r))).
  { rewrite letters_cons, to_case_sep. destruct (separator c); [apply IH|].
    constructor; [apply same_to_case|apply IH]. }
  destruct (is_upper_ascii c); [|exact H].
  rewrite (letters_cons c_under). exact H.
Qed.

Lemma make_kebab_letters : forall s first,
  Forall2 same_letter (letters s) (letters (make_kebab first s)).
Proof.
  induction s as [|c r IH]; intros first; [constructor|].
  cbn [make_kebab]. change (N.eqb c c_minus || N.eqb c c_under) with (separator c).
  rewrite letters_cons.
  destruct ((first || is_none r) && separator c) eqn:E1.
  { apply andb_true_iff in E1. destruct E1 as [_ E1]. rewrite E1. apply IH. }
  destruct (first && is_upper_ascii c) eqn:E2.
  { rewrite letters_cons, to_lower_sep.
    destruct (separator c); [apply IH|]. constructor; [apply same_to_lower|apply IH]. }
  destruct (separator c && next_is next_places r) eqn:E3.
  { apply andb_true_iff in E3. destruct E3 as [E3 _]. rewrite E3. apply IH. }
  destruct (N.eqb c c_under) eqn:E4.
  { rewrite letters_cons. apply N.eqb_eq in E4. subst c. apply IH. }
  assert (H : Forall2 same_letter (if separator c then letters r else c :: letters r)
                (letters (to_lower_ascii c :: make_kebab false r))).
  { rewrite letters_cons, to_lower_sep. destruct (separator c); [apply IH|].
    constructor; [apply same_to_lower|apply IH]. }
  destruct (is_upper_ascii c); [|exact H].
  rewrite (letters_cons c_minus). exact H.
Qed.

Lemma not_upper : forall c, (lower c \/ digit c) \/ c = underline \/ c = minus -> is_upper_ascii c = false.
Proof.
  intros c H. destruct (is_upper_ascii c) eqn:E; [|reflexivity]. chars. lia.
Qed.

Lemma next_places_word : forall c, lower c \/ digit c -> next_places c = false.
Proof.
  intros c H. unfold next_places. rewrite !orb_false_iff. repeat split.
  - apply N.eqb_neq. chars. lia.
  - apply N.eqb_neq. chars. lia.
  - apply not_upper. now left.
Qed.

(** What a position of a valid name looks like. *)
Lemma loop_next : forall sep s, sep = underline \/ sep = minus ->
  loop sep is_lower_ascii false s = true -> next_is next_places s = true ->
  exists r, s = sep :: r.
Proof.
  intros sep [|c r] Hs H Hn; [discriminate|]. cbn [loop next_is orb] in *.
  destruct (is_none r && N.eqb c sep) eqn:E1; [discriminate|].
  destruct (negb (is_lower_ascii c) && negb (is_digit_ascii c)) eqn:E2.
  - destruct (N.eqb c sep) eqn:E3; [|discriminate]. apply N.eqb_eq in E3. subst. eauto.
  - apply (is_word _ lower lower_iff) in E2. rewrite next_places_word in Hn by exact E2. discriminate.
Qed.

Lemma loop_step : forall sep c r, loop sep is_lower_ascii false (c :: r) = true ->
  ((lower c \/ digit c) \/ c = sep /\ r <> [] /\ forall r', r <> sep :: r') /\ loop sep is_lower_ascii false r = true.
Proof.
  intros sep c r H. cbn [loop orb] in H.
  destruct (is_none r && N.eqb c sep) eqn:E1; [discriminate|].
  destruct (negb (is_lower_ascii c) && negb (is_digit_ascii c)) eqn:E2.
  - destruct (N.eqb c sep) eqn:E3; [|discriminate]. apply N.eqb_eq in E3. subst. cbn [andb negb] in H.
    destruct (next_is _ r) eqn:E4; [discriminate|]. split; [|exact H]. right. split; [reflexivity|].
    split; [destruct r; discriminate|]. intros r' ->. cbn in E4. rewrite N.eqb_refl in E4. discriminate.
  - cbn [andb] in H. destruct (next_is _ r); [discriminate|].
    apply (is_word _ lower lower_iff) in E2. auto.
Qed.

Lemma lower_id : forall c, is_upper_ascii c = false -> to_lower_ascii c = c.
Proof. intros c H. unfold to_lower_ascii. now rewrite H. Qed.

Lemma word_not_sep : forall c, lower c \/ digit c -> N.eqb c c_minus = false /\ N.eqb c c_under = false.
Proof. intros c H. split; apply N.eqb_neq; chars; lia. Qed.

Lemma make_snake_id : forall s, loop c_under is_lower_ascii false s = true -> make_snake false false s = s.
Proof.
  induction s as [|c r IH]; intros H; [reflexivity|]. destruct (loop_step _ _ _ H) as [Hc Hr].
  cbn [make_snake orb andb]. rewrite (IH Hr). destruct Hc as [Hc|(-> & Hne & Hn)].
  - destruct (word_not_sep c Hc) as [-> ->]. cbn [orb andb]. rewrite andb_false_r.
    rewrite (not_upper c) by auto. cbn [to_case]. rewrite lower_id by (apply not_upper; auto). reflexivity.
  - change (N.eqb c_under c_minus) with false. change (N.eqb c_under c_under) with true. cbn [orb andb].
    destruct r as [|d r]; [contradiction|]. cbn [is_none andb].
    destruct (next_is next_places (d :: r)) eqn:E; [|reflexivity].
    destruct (loop_next c_under _ (or_introl eq_refl) Hr E) as (r' & E'). exfalso. eapply Hn, E'.
Qed.

Lemma make_kebab_id : forall s, loop c_minus is_lower_ascii false s = true -> make_kebab false s = s.
Proof.
  induction s as [|c r IH]; intros H; [reflexivity|]. destruct (loop_step _ _ _ H) as [Hc Hr].
  cbn [make_kebab orb andb]. rewrite (IH Hr). destruct Hc as [Hc|(-> & Hne & Hn)].
  - destruct (word_not_sep c Hc) as [-> ->]. cbn [orb andb]. rewrite andb_false_r.
    rewrite (not_upper c) by auto. rewrite lower_id by (apply not_upper; auto). reflexivity.
  - change (N.eqb c_minus c_under) with false. change (N.eqb c_minus c_minus) with true. cbn [orb andb].
    destruct r as [|d r]; [contradiction|]. cbn [is_none andb].
    destruct (next_is next_places (d :: r)) eqn:E; [|reflexivity].
    destruct (loop_next c_minus _ (or_intror eq_refl) Hr E) as (r' & E'). exfalso. eapply Hn, E'.
Qed.

Lemma loop_first : forall sep c r, loop sep is_lower_ascii true (c :: r) = true ->
  (lower c \/ digit c) /\ loop sep is_lower_ascii false r = true.
Proof.
  intros sep c r H. cbn [loop orb andb] in H. destruct (N.eqb c sep); [discriminate|].
  cbn [negb andb] in H. rewrite andb_true_r in H.
  destruct (negb (is_lower_ascii c) && negb (is_digit_ascii c)) eqn:E; [discriminate|].
  apply (is_word _ lower lower_iff) in E. destruct (next_is _ r); [discriminate|]. auto.
Qed.

(** * C30 *)

Theorem C30_snake_case_suggestions :
  (** a suggested name is a valid name with the same letters *)
  (forall original screaming suggested, try_make_snake_case original screaming = Some suggested ->
     snake_case screaming suggested /\ Forall2 same_letter (letters original) (letters suggested)) /\
  (** the names that are not reported are exactly the valid ones *)
  (forall name screaming, is_valid_ascii_alpha_snake_case name screaming = true <-> snake_case screaming name) /\
  (** a valid name is its own suggestion *)
  (forall name, snake_case false name -> try_make_snake_case name false = Some name).
Proof.
  split; [|split].
  - intros s scr a H. unfold try_make_snake_case in H. cbv zeta in H.
    destruct (is_valid_ascii_alpha_snake_case _ scr) eqn:E; [|discriminate]. injection H as <-.
    split; [now apply snake_iff|apply make_snake_letters].
  - intros s scr. apply snake_iff.
  - intros s H. apply snake_iff in H. unfold try_make_snake_case.
    assert (E : make_snake false true s = s).
    { destruct s as [|c r]; [reflexivity|]. unfold is_valid_ascii_alpha_snake_case in H.
      rewrite snake_loop_eq in H. destruct (loop_first _ _ _ H) as [Hc Hr].
      cbn [make_snake orb]. destruct (word_not_sep c Hc) as [-> ->]. cbn [orb andb].
      rewrite (not_upper c) by auto. cbn [to_case]. rewrite lower_id by (apply not_upper; auto).
      now rewrite make_snake_id. }
    cbv zeta. rewrite E, H. reflexivity.
Qed.

Example C30_case :
  try_make_snake_case (txt "myBlock--Name_2"%string) false = Some (txt "my_block_name_2"%string) /\
  snake_case false (txt "my_block_name_2"%string) /\
  try_make_snake_case (txt "sw.block"%string) false = None.
Proof.
  split; [vm_compute; reflexivity|]. split; [|vm_compute; reflexivity].
  apply snake_iff. vm_compute. reflexivity.
Qed.

(** Not so for the screaming variant, which is only used in a message: every letter becomes a word. *)
Theorem C30_screaming_own_suggestion_refuted :
  ~ (forall name, snake_case true name -> try_make_snake_case name true = Some name).
Proof.
  intros H. specialize (H (txt "MY"%string)). rewrite <- snake_iff in H. specialize (H eq_refl). discriminate.
Qed.

(** * C32 *)

Theorem C32_kebab_case_suggestions :
  (forall original suggested, try_make_kebab_case original = Some suggested ->
     kebab_case suggested /\ Forall2 same_letter (letters original) (letters suggested)) /\
  (forall name, is_valid_alphanumeric_kebab_case name = true <-> kebab_case name) /\
  (forall name, kebab_case name -> try_make_kebab_case name = Some name).
Proof.
  split; [|split].
  - intros s a H. unfold try_make_kebab_case in H. cbv zeta in H.
    destruct (is_valid_alphanumeric_kebab_case _) eqn:E; [|discriminate]. injection H as <-.
    split; [now apply kebab_iff|apply make_kebab_letters].
  - intros s. apply kebab_iff.
  - intros s H. apply kebab_iff in H. unfold try_make_kebab_case.
    assert (E : make_kebab true s = s).
    { destruct s as [|c r]; [reflexivity|]. unfold is_valid_alphanumeric_kebab_case in H.
      cbn [kebab_loop orb] in H. destruct (N.eqb c c_minus) eqn:E1; [discriminate|]. cbn [andb] in H.
      destruct (is_lower_ascii c || is_digit_ascii c || kebab_prefix c) eqn:E2; [|discriminate]. cbn [negb] in H.
      destruct (next_is _ r); [discriminate|]. rewrite kebab_loop_eq in H.
      assert (Hu : is_upper_ascii c = false /\ N.eqb c c_under = false).
      { rewrite !orb_true_iff, kebab_prefix_iff, lower_iff, digit_iff in E2. split.
        - destruct (is_upper_ascii c) eqn:E; [|reflexivity]. chars. lia.
        - apply N.eqb_neq. chars. lia. }
      destruct Hu as [Hu1 Hu2]. cbn [make_kebab orb]. rewrite E1, Hu2, Hu1. cbn [orb andb].
      rewrite lower_id by exact Hu1. now rewrite make_kebab_id. }
    cbv zeta. rewrite E, H. reflexivity.
Qed.

Example C32_case :
  try_make_kebab_case (txt "@myAttr__Name"%string) = Some (txt "@my-attr-name"%string) /\
  kebab_case (txt "@my-attr-name"%string) /\
  try_make_kebab_case (txt "my:attr"%string) = None.
Proof.
  split; [vm_compute; reflexivity|]. split; [|vm_compute; reflexivity].
  apply kebab_iff. vm_compute. reflexivity.
Qed.

(** * C31 *)

(** Block names and attribute names like [_] get the empty name as a suggestion. *)
Theorem C31_suggested_names_nonempty_refuted :
  ~ (forall original suggested, original <> [] ->
       try_make_snake_case original false = Some suggested \/ try_make_kebab_case original = Some suggested ->
       suggested <> []).
Proof.
  intros H. apply (H (txt "_"%string) []); [discriminate|left; vm_compute; reflexivity|reflexivity].
Qed.

Lemma make_snake_seps : forall scr s, forallb separator s = true ->
  forall first, make_snake scr first s = [].
Proof.
  intros scr. induction s as [|c r IH]; intros H first; [reflexivity|]. cbn [forallb] in H.
  apply andb_true_iff in H. destruct H as [Hc Hr]. cbn [make_snake].
  change (N.eqb c c_minus || N.eqb c c_under) with (separator c). rewrite Hc, !(IH Hr).
  destruct r as [|d r]; [rewrite orb_true_r; reflexivity|]. cbn [is_none next_is].
  cbn [forallb] in Hr. apply andb_true_iff in Hr. destruct Hr as [Hd _].
  replace (next_places d) with true.
  - cbn [andb]. destruct first; [reflexivity|]. reflexivity.
  - symmetry. unfold next_places. unfold separator in Hd. rewrite orb_true_iff in Hd.
    change minus with c_minus in Hd. change underline with c_under in Hd. rewrite !orb_true_iff. tauto.
Qed.

Lemma make_kebab_seps : forall s, forallb separator s = true ->
  forall first, make_kebab first s = [].
Proof.
  induction s as [|c r IH]; intros H first; [reflexivity|]. cbn [forallb] in H.
  apply andb_true_iff in H. destruct H as [Hc Hr]. cbn [make_kebab].
  change (N.eqb c c_minus || N.eqb c c_under) with (separator c). rewrite Hc, !(IH Hr).
  destruct r as [|d r]; [rewrite orb_true_r; reflexivity|]. cbn [is_none next_is].
  cbn [forallb] in Hr. apply andb_true_iff in Hr. destruct Hr as [Hd _].
  replace (next_places d) with true.
  - cbn [andb]. destruct first; [reflexivity|]. reflexivity.
  - symmetry. unfold next_places. unfold separator in Hd. rewrite orb_true_iff in Hd.
    change minus with c_minus in Hd. change underline with c_under in Hd. rewrite !orb_true_iff. tauto.
Qed.

Lemma letters_nil : forall s, letters s = [] -> forallb separator s = true.
Proof.
  induction s as [|c s IH]; [reflexivity|]. rewrite letters_cons. cbn [forallb].
  destruct (separator c); [exact IH|discriminate].
Qed.

(** The exact extent of it: this happens for the names made of separators only. *)
Theorem C31_suggested_names_nonempty_partial : forall original,
  (forall screaming, try_make_snake_case original screaming = Some [] <->
     Forall (fun c => c = underline \/ c = minus) original) /\
  (try_make_kebab_case original = Some [] <-> Forall (fun c => c = underline \/ c = minus) original).
Proof.
  intros s.
  assert (HS : forallb separator s = true <-> Forall (fun c => c = underline \/ c = minus) s).
  { rewrite forallb_forall, Forall_forall. split; intros H c Hc; specialize (H c Hc); unfold separator in *;
      rewrite orb_true_iff, !N.eqb_eq in *; tauto. }
  split; [intros scr|]; rewrite <- HS; split; intros H.
  - apply C30_snake_case_suggestions in H. destruct H as [_ H]. inversion H. now apply letters_nil.
  - unfold try_make_snake_case. rewrite make_snake_seps by exact H. reflexivity.
  - apply C32_kebab_case_suggestions in H. destruct H as [_ H]. inversion H. now apply letters_nil.
  - unfold try_make_kebab_case. rewrite make_kebab_seps by exact H. reflexivity.
Qed.

Example C31_case : try_make_snake_case (txt "__-"%string) false = Some [] /\ try_make_kebab_case (txt "_a-"%string) = Some (txt "a"%string).
Proof. split; vm_compute; reflexivity. Qed.

Print Assumptions C30_snake_case_suggestions.
Print Assumptions C31_suggested_names_nonempty_partial.
Print Assumptions C32_kebab_case_suggestions.

(** * C43 *)

(** camelCase: any number of leading underlines, then nothing, or a lowercase letter followed by
    characters other than underline and minus. *)
Definition camel_case (s : text) : Prop :=
  exists n rest, s = repeat underline n ++ rest /\
    (rest = [] \/ exists c r, rest = c :: r /\ lower c /\ ~ In underline r /\ ~ In minus r).

Lemma trim_under_split : forall s, exists n, s = repeat underline n ++ trim_under s /\
  (forall r, trim_under s <> underline :: r).
Proof.
  induction s as [|c s (n & IH & N)]; [exists 0; split; [reflexivity|discriminate]|]. cbn [trim_under].
  destruct (N.eqb c c_under) eqn:E.
  - apply N.eqb_eq in E. subst c. exists (S n). cbn [repeat app]. split; [f_equal; exact IH|exact N].
  - exists 0. split; [reflexivity|]. intros r X. injection X as -> _. discriminate.
Qed.
Lemma trim_under_repeat : forall n rest, trim_under (repeat underline n ++ rest) = trim_under rest.
Proof. induction n as [|n IH]; intros rest; [reflexivity|]. cbn [repeat app trim_under]. exact (IH rest). Qed.
Lemma existsb_In c s : existsb (N.eqb c) s = true <-> In c s.
Proof.
  rewrite existsb_exists. split; [intros (x & H & E); apply N.eqb_eq in E; now subst|].
  intros H. exists c. split; [exact H|apply N.eqb_refl].
Qed.

Theorem C43_camel_case_check : forall name, is_camel_case name = true <-> camel_case name.
Proof.
  intros name. unfold is_camel_case. split.
  - destruct (trim_under_split name) as (n & E & _). destruct (trim_under name) as [|c r] eqn:T; intros H.
    + exists n, []. rewrite app_nil_r in *. auto.
    + destruct (is_lower_ascii c) eqn:L; [|discriminate]. cbn [negb] in H. apply andb_true_iff in H as [H1 H2].
      apply negb_true_iff in H1, H2. exists n, (c :: r). split; [exact E|]. right. exists c, r.
      split; [reflexivity|]. split; [now apply lower_iff|]. split; intros X.
      * apply (in_cons c) in X. apply existsb_In in X. unfold underline in X. unfold c_under in H1. congruence.
      * apply (in_cons c) in X. apply existsb_In in X. unfold minus in X. unfold c_minus in H2. congruence.
  - intros (n & rest & -> & H). rewrite trim_under_repeat. destruct H as [->|(c & r & -> & L & U & M)]; [reflexivity|].
    assert (Nu : N.eqb c c_under = false) by (apply N.eqb_neq; unfold lower, c_under in *; lia).
    assert (Nm : c <> minus) by (unfold lower, minus in *; lia).
    cbn [trim_under]. rewrite Nu. apply lower_iff in L. rewrite L. cbn [negb]. apply andb_true_iff.
    split; apply negb_true_iff, not_true_is_false; rewrite existsb_In; intros [X|X]; auto.
    subst c. discriminate.
Qed.
Example C43_case :
  camel_case (txt "__myVar1"%string) /\ ~ camel_case (txt "my-var"%string) /\ ~ camel_case (txt "My"%string).
Proof. rewrite <- !C43_camel_case_check. vm_compute. repeat split; discriminate. Qed.
Print Assumptions C43_camel_case_check.
