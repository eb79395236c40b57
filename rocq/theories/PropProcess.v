(** Property theorems about fixing files: C20 to C27. *)
From Coq Require Import NArith String Bool Lia Arith List Permutation.
Import ListNotations.
From Verif Require Import Text Kind LexerProofs ParserApi Machine TreeSpec Red Typed Rule Rules Check Process DefaultConfig.
Local Open Scope list_scope.
Local Notation length := List.length (only parsing).

(** * What is meant *)

(** [off] is a position between two characters of [t], or one of its ends. *)
Definition boundary (t : text) (off : nat) : Prop := exists a b, t = a ++ b /\ blen a = off.

(** The range of [s] fits the text. *)
Definition fits (t : text) (s : suggestion) : Prop :=
  sg_start s <= sg_end s /\ boundary t (sg_start s) /\ boundary t (sg_end s).

(** [edited pos t edits new]: [new] is [t], a text that starts at [pos], with the ranges of
    [edits], from left to right, replaced and everything else kept. *)
Inductive edited : nat -> text -> list suggestion -> text -> Prop :=
| edited_none pos t : edited pos t [] t
| edited_one pos keep old rest s edits new :
    sg_start s = pos + blen keep -> sg_end s = sg_start s + blen old ->
    edited (sg_end s) rest edits new ->
    edited pos (keep ++ old ++ rest) (s :: edits) (keep ++ sg_text s ++ new).

(** Every edit ends before the next one starts. *)
Inductive in_order : list suggestion -> Prop :=
| in_order_nil : in_order []
| in_order_cons s l : Forall (fun x => sg_end s <= sg_start x) l -> in_order l -> in_order (s :: l).

(** Two edits share a part of the text, or one inserts inside the other. *)
Definition overlap (a b : suggestion) : Prop := sg_start a < sg_end b /\ sg_start b < sg_end a.

(** * Splitting *)
Lemma bsplit_app a b : bsplit (blen a) (a ++ b) = Some (a, b).
Proof.
  induction a as [|c a IH]; [destruct b; reflexivity|].
  change (blen (c :: a)) with (utf8_len c + blen a). pose proof (utf8_len_pos c) as P. cbn [app].
  destruct (utf8_len c) as [|u] eqn:U; [lia|]. cbn [plus bsplit]. rewrite U.
  replace (Nat.leb (S u) (S (u + blen a))) with true by (symmetry; apply Nat.leb_le; lia).
  replace (S (u + blen a) - S u) with (blen a) by lia. rewrite IH. reflexivity.
Qed.
Lemma bsplit_sound : forall t i a b, bsplit i t = Some (a, b) -> t = a ++ b /\ blen a = i.
Proof.
  induction t as [|c t IH]; intros i a b; destruct i as [|i]; cbn [bsplit].
  - intros [= <- <-]. split; reflexivity.
  - discriminate.
  - intros [= <- <-]. split; reflexivity.
  - destruct (Nat.leb (utf8_len c) (S i)) eqn:L; [|discriminate].
    destruct (bsplit (S i - utf8_len c) t) as [[a' b']|] eqn:E; [|discriminate].
    intros [= <- <-]. apply IH in E. destruct E as [-> E]. apply Nat.leb_le in L.
    split; [reflexivity|]. change (blen (c :: a')) with (utf8_len c + blen a'). lia.
Qed.

Lemma blen_prefix : forall a b c d, a ++ b = c ++ d -> blen a <= blen c -> exists m, c = a ++ m /\ b = m ++ d.
Proof.
  induction a as [|x a IH]; intros b c d E L; [exists c; split; [reflexivity|exact E]|].
  destruct c as [|y c].
  - change (blen (x :: a)) with (utf8_len x + blen a) in L. pose proof (utf8_len_pos x). cbn in L. lia.
  - cbn [app] in E. injection E as -> E.
    change (blen (y :: a)) with (utf8_len y + blen a) in L.
    change (blen (y :: c)) with (utf8_len y + blen c) in L.
    destruct (IH b c d E) as (m & -> & ->); [lia|]. exists m. split; reflexivity.
Qed.

(** * C20 *)
Lemma apply_edits : forall edits pre t,
  in_order edits -> Forall (fun s => blen pre <= sg_start s /\ fits (pre ++ t) s) edits ->
  exists new, apply_suggestions edits (pre ++ t) = Done (pre ++ new) /\ edited (blen pre) t edits new.
Proof.
  induction edits as [|s edits IH]; intros pre t O F.
  - exists t. split; [reflexivity|constructor].
  - inversion O as [|? ? O1 O2]; subst. inversion F as [|? ? [F1 (F2 & F3 & F4)] F5]; subst.
    destruct F3 as (a1 & b1 & E1 & L1). destruct F4 as (a2 & b2 & E2 & L2).
    destruct (blen_prefix _ _ _ _ E1) as (keep & -> & E3); [lia|].
    rewrite E1 in E2. destruct (blen_prefix _ _ _ _ E2) as (old & -> & ->); [lia|].
    subst t. rename b2 into rest.
    destruct (IH (pre ++ keep ++ old) rest O2) as (new & A & D).
    { rewrite Forall_forall in *. intros x Hx. specialize (F5 x Hx). specialize (O1 x Hx).
      split; [rewrite <- L2, <- app_assoc in O1; exact O1|].
      rewrite <- !app_assoc. exact (proj2 F5). }
    exists (keep ++ sg_text s ++ new). rewrite <- !app_assoc in *. split.
    + cbn [apply_suggestions]. rewrite A. unfold replace_range.
      replace (Nat.leb (sg_start s) (sg_end s)) with true by (symmetry; apply Nat.leb_le; exact F2).
      rewrite <- L1, <- L2.
      replace (pre ++ keep ++ old ++ new) with ((pre ++ keep) ++ old ++ new) by (rewrite <- app_assoc; reflexivity).
      rewrite bsplit_app.
      replace ((pre ++ keep) ++ old ++ new) with ((pre ++ keep ++ old) ++ new) by (rewrite <- !app_assoc; reflexivity).
      rewrite bsplit_app. rewrite <- app_assoc. reflexivity.
    + rewrite !blen_app in *. apply edited_one; [lia|lia|].
      replace (sg_end s) with (blen pre + (blen keep + blen old)) by lia. exact D.
Qed.

Theorem C20_edits_are_applied_exactly : forall source edits,
  in_order edits -> Forall (fits source) edits ->
  exists new, apply_suggestions edits source = Done new /\ edited 0 source edits new.
Proof.
  intros source edits O F. destruct (apply_edits edits [] source O) as (new & A & D).
  - rewrite Forall_forall in *. intros s Hs. split; [cbn; lia|exact (F s Hs)].
  - exists new. split; assumption.
Qed.

(** The text described by [edited] is unique. *)
Theorem C20_edited_text_is_unique : forall edits pos t new new',
  edited pos t edits new -> edited pos t edits new' -> new = new'.
Proof.
  induction edits as [|s edits IH]; intros pos t new new' H H'.
  - inversion H; inversion H'; subst; congruence.
  - inversion H as [|? keep old rest ? ? n S1 S2 D E1 E2 E3]. inversion H' as [|? keep' old' rest' ? ? n' S1' S2' D' E1' E2' E3'].
    subst pos. clear H H'. assert (N : forall m, blen m = 0 -> m = []).
    { intros [|c m] L; [reflexivity|]. change (blen (c :: m)) with (utf8_len c + blen m) in L.
      pose proof (utf8_len_pos c). lia. }
    rewrite <- E2' in E2. clear E2'.
    destruct (blen_prefix _ _ _ _ E2) as (m & -> & E4); [lia|].
    rewrite blen_app in S1'. assert (m = []) by (apply N; lia). subst m. cbn [app] in E4. rewrite app_nil_r in *.
    destruct (blen_prefix _ _ _ _ E4) as (m' & -> & ->); [lia|].
    rewrite blen_app in S2'. assert (m' = []) by (apply N; lia). subst m'. cbn [app] in *.
    do 2 f_equal. eapply IH; eassumption.
Qed.

(** An insertion, a deletion and a replacement in a text with two-byte characters. *)
Definition C20_edits : list suggestion :=
  [mkSug 2 2 (txt "_") []; mkSug 3 5 [] []; mkSug 5 7 (txt "XYZ") []].
Definition C20_source : text := [97; 98; 99; 228; 252; 100]%N.
Example C20_case :
  in_order C20_edits /\ Forall (fits C20_source) C20_edits /\
  apply_suggestions C20_edits C20_source = Done (txt "ab_cXYZd").
Proof.
  split; [|split; [|reflexivity]].
  - unfold C20_edits. repeat (constructor; [repeat (constructor; [cbn; lia|]); constructor|]). constructor.
  - unfold C20_source. repeat constructor; cbn [sg_start sg_end].
    all: first
      [ lia
      | exists [97; 98]%N, [99; 228; 252; 100]%N; split; reflexivity
      | exists [97; 98; 99]%N, [228; 252; 100]%N; split; reflexivity
      | exists [97; 98; 99; 228]%N, [252; 100]%N; split; reflexivity
      | exists [97; 98; 99; 228; 252]%N, [100]%N; split; reflexivity ].
Qed.

(** * C21, C22, C23: what --fix does to some templates *)

(** The default run: all rules with the default configuration. *)
Definition fix_default (src : text) : outcome (file_context * list result * bool * nat) :=
  match parse_file true src with
  | Crashed => Crash
  | Done (t, errs) =>
    let rules := get_file_active_rules (root_elem t) RULE_DEFINITIONS in
    match run_rules default_config rules t with
    | Crashed => Crash
    | Done rs => iteratively_apply_suggestions true insertion_sort default_config (mkFile src t errs rules) rs
    end
  end.

(** The edits of the first round for a template. *)
Definition first_round (src : text) : list suggestion :=
  match parse_file true src with
  | Done (t, _) =>
    match run_rules default_config (get_file_active_rules (root_elem t) RULE_DEFINITIONS) t with
    | Done rs =>
      match insertion_sort (rule_suggestions rs) with
      | Done sorted => match select_suggestions sorted with inr l => l | inl _ => [] end
      | Crashed => []
      end
    | Crashed => []
    end
  | Crashed => []
  end.

Fixpoint pairwise {A : Type} (R : A -> A -> Prop) (l : list A) : Prop :=
  match l with [] => True | x :: r => Forall (R x) r /\ pairwise R r end.

Definition overlap_template : text := txt "{{ a === (""c"" && b) }}"%string.

(** C21 in full: no template makes a fix round apply overlapping edits.  Refuted: the edit of
    twig-use-is-same-as covers the parenthesis in which && is replaced. *)
Theorem C21_no_overlapping_edits_refuted :
  ~ (forall src, pairwise (fun a b => ~ overlap a b) (first_round src)).
Proof.
  intros H. specialize (H overlap_template). unfold pairwise in H.
  assert (E : map (fun s => (sg_start s, sg_end s)) (first_round overlap_template) = [(5, 19); (14, 16)]).
  { vm_compute. reflexivity. }
  destruct (first_round overlap_template) as [|s1 [|s2 [|s3 l]]]; try discriminate.
  cbn [map] in E. injection E as E1 E2 E3 E4.
  destruct H as [H _]. inversion H; subst. apply H2. unfold overlap. lia.
Qed.

(** Overlapping is transitive among the suggestions: whole groups overlap, no chain does. *)
Definition grouped (l : list (text * suggestion)) : Prop :=
  forall a b c, In a l -> In b l -> In c l ->
    overlap (snd a) (snd b) -> overlap (snd b) (snd c) -> overlap (snd a) (snd c).
Definition proper (l : list (text * suggestion)) : Prop :=
  forall a, In a l -> sg_start (snd a) <= sg_end (snd a).

(** What is expected of the sorting function of the standard library: it permutes the list, and
    where the given order is consistent no element comes after one that it is less than. *)
Definition sorts (sort : list (text * suggestion) -> out (list (text * suggestion))) : Prop :=
  forall l sorted, sort l = Done sorted ->
    Permutation l sorted /\
    (grouped l -> proper l -> pairwise (fun a b => ordering (snd a) (snd b) <> Gt) sorted).

Lemma ordering_eq a b : ordering a b = Eq <-> overlap a b.
Proof.
  unfold ordering, overlap. destruct (Nat.leb_spec (sg_end a) (sg_start b)); [split; [discriminate|lia]|].
  destruct (Nat.leb_spec (sg_end b) (sg_start a)); split; try discriminate; try lia. reflexivity.
Qed.
Lemma ordering_lt a b : ordering a b = Lt <-> sg_end a <= sg_start b.
Proof.
  unfold ordering. destruct (Nat.leb_spec (sg_end a) (sg_start b)); [split; auto|].
  destruct (Nat.leb_spec (sg_end b) (sg_start a)); split; try discriminate; lia.
Qed.
Lemma ordering_gt a b : ordering a b = Gt <-> sg_start b < sg_end a /\ sg_end b <= sg_start a.
Proof.
  unfold ordering. destruct (Nat.leb_spec (sg_end a) (sg_start b)); [split; [discriminate|lia]|].
  destruct (Nat.leb_spec (sg_end b) (sg_start a)); split; try discriminate; try lia. reflexivity.
Qed.
Lemma overlap_sym a b : overlap a b -> overlap b a.
Proof. unfold overlap. tauto. Qed.

(** In a sorted list everything between two overlapping suggestions overlaps them. *)
Lemma between : forall l i k j m1 m2 m3 m4,
  grouped l -> proper l -> pairwise (fun a b => ordering (snd a) (snd b) <> Gt) l ->
  l = m1 ++ i :: m2 ++ k :: m3 ++ j :: m4 -> overlap (snd i) (snd j) -> overlap (snd i) (snd k).
Proof.
  intros l i k j m1 m2 m3 m4 G P S -> O.
  assert (Ii : In i (m1 ++ i :: m2 ++ k :: m3 ++ j :: m4)) by (apply in_or_app; right; left; reflexivity).
  assert (Ik : In k (m1 ++ i :: m2 ++ k :: m3 ++ j :: m4)).
  { apply in_or_app; right; right; apply in_or_app; right; left; reflexivity. }
  assert (Ij : In j (m1 ++ i :: m2 ++ k :: m3 ++ j :: m4)).
  { apply in_or_app; right; right; apply in_or_app; right; right; apply in_or_app; right; left; reflexivity. }
  assert (Sik : ordering (snd i) (snd k) <> Gt).
  { clear - S. induction m1 as [|x m1 IH]; [|apply IH; exact (proj2 S)].
    cbn [app pairwise] in S. destruct S as [S _]. rewrite Forall_forall in S. apply S.
    apply in_or_app; right; left; reflexivity. }
  assert (Skj : ordering (snd k) (snd j) <> Gt).
  { clear - S. induction m1 as [|x m1 IH]; [|apply IH; exact (proj2 S)].
    destruct S as [_ S]. induction m2 as [|x m2 IH]; [|apply IH; exact (proj2 S)].
    cbn [app pairwise] in S. destruct S as [S _]. rewrite Forall_forall in S. apply S.
    apply in_or_app; right; left; reflexivity. }
  destruct (ordering (snd i) (snd k)) eqn:Eik; [apply ordering_eq; exact Eik| |contradiction].
  exfalso. apply ordering_lt in Eik. pose proof (P k Ik) as Pk.
  destruct (ordering (snd k) (snd j)) eqn:Ekj; [| |contradiction].
  - apply ordering_eq in Ekj. pose proof (G i j k Ii Ij Ik O (overlap_sym _ _ Ekj)) as Q. unfold overlap in Q. lia.
  - apply ordering_lt in Ekj. unfold overlap in O. lia.
Qed.

(** The rule of a suggestion that overlaps the one before it is left out. *)
Lemma overlapping_named : forall l names m1 x y m2,
  overlapping_rules l = inr names -> l = m1 ++ x :: y :: m2 -> overlap (snd x) (snd y) -> In (fst y) names.
Proof.
  induction l as [|[ra a] l IH]; intros names m1 x y m2 E D O; [destruct m1; discriminate|].
  destruct l as [|[rb b] l'] eqn:L; [destruct m1 as [|z [|]]; discriminate|]. rewrite <- L in *.
  assert (R : exists names', overlapping_rules l = inr names' /\ incl names' names /\
              (ordering a b = Eq -> In rb names)).
  { cbn [overlapping_rules] in E. rewrite L in E at 1. destruct (ordering a b).
    - destruct (text_eqb ra rb); [discriminate|]. destruct (overlapping_rules l) as [|n]; [discriminate|].
      injection E as <-. exists n. split; [reflexivity|split; [intros z Z; right; exact Z|left; reflexivity]].
    - exists names. split; [exact E|split; [apply incl_refl|discriminate]].
    - exists names. split; [exact E|split; [apply incl_refl|discriminate]]. }
  destruct R as (names' & R1 & R2 & R3). destruct m1 as [|z m1].
  - cbn [app] in D. rewrite L in D. injection D as <- <- <-. cbn [snd fst] in *.
    apply R3. apply ordering_eq. exact O.
  - cbn [app] in D. injection D as _ D. apply R2. eapply IH; eassumption.
Qed.

Lemma mem_text_in x l : In x l -> mem_text x l = true.
Proof.
  intros H. apply existsb_exists. exists x. split; [exact H|]. apply text_eqb_eq. reflexivity.
Qed.

Lemma pairwise_pairs {A} (R : A -> A -> Prop) : forall l,
  (forall m1 x m2 y m3, l = m1 ++ x :: m2 ++ y :: m3 -> R x y) -> pairwise R l.
Proof.
  induction l as [|x l IH]; intros H; [exact I|]. split.
  - apply Forall_forall. intros y Hy. apply in_split in Hy. destruct Hy as (m2 & m3 & ->).
    apply (H [] x m2 y m3). reflexivity.
  - apply IH. intros m1 u m2 v m3 ->. apply (H (x :: m1) u m2 v m3). reflexivity.
Qed.

Lemma pairwise_map_filter {A B} (f : A -> B) (p : A -> bool) (R : B -> B -> Prop) : forall l,
  pairwise (fun a b => p b = true -> R (f a) (f b)) l -> pairwise R (map f (filter p l)).
Proof.
  induction l as [|x l IH]; intros H; [exact I|]. destruct H as [H1 H2]. cbn [filter].
  destruct (p x) eqn:E; [|exact (IH H2)]. split; [|exact (IH H2)].
  rewrite Forall_forall in *. intros y Hy. apply in_map_iff in Hy. destruct Hy as (z & <- & Hz).
  apply filter_In in Hz. apply H1; apply Hz.
Qed.

(** C21 restricted to suggestions whose overlaps form groups; the missing part, a chain of
    overlapping suggestions, is refuted above. *)
Theorem C21_no_overlapping_edits_partial : forall sort sugs sorted chosen,
  sorts sort -> sort sugs = Done sorted -> select_suggestions sorted = inr chosen ->
  grouped sugs -> proper sugs -> pairwise (fun a b => ~ overlap a b) chosen.
Proof.
  intros sort sugs sorted chosen C S E G P. destruct (C _ _ S) as [Pm Sd]. specialize (Sd G P).
  assert (G' : grouped sorted).
  { intros a b c Ha Hb Hc. apply G; apply (Permutation_in _ (Permutation_sym Pm)); assumption. }
  assert (P' : proper sorted).
  { intros a Ha. apply P. apply (Permutation_in _ (Permutation_sym Pm)). exact Ha. }
  unfold select_suggestions in E. destruct (overlapping_rules sorted) as [r|names] eqn:O; [discriminate|].
  injection E as <-. apply pairwise_map_filter. apply pairwise_pairs.
  intros m1 x m2 y m3 D K Q.
  assert (N : In (fst y) names).
  { destruct (destruct_list (rev m2)) as [(z & m & Z)|Z].
    - apply (f_equal (@rev _)) in Z. rewrite rev_involutive in Z. cbn [rev] in Z. set (m' := rev m) in *.
      assert (D' : sorted = m1 ++ x :: m' ++ z :: [] ++ y :: m3).
      { rewrite D, Z, <- app_assoc. reflexivity. }
      pose proof (between _ _ _ _ _ _ _ _ G' P' Sd D' Q) as B.
      assert (Ix : In x sorted) by (rewrite D'; apply in_or_app; right; left; reflexivity).
      assert (Iz : In z sorted).
      { rewrite D'; apply in_or_app; right; right; apply in_or_app; right; left; reflexivity. }
      assert (Iy : In y sorted).
      { rewrite D; apply in_or_app; right; right; apply in_or_app; right; left; reflexivity. }
      apply (overlapping_named sorted names (m1 ++ x :: m') z y m3 O).
      + rewrite D'. rewrite <- app_assoc. reflexivity.
      + exact (G' z x y Iz Ix Iy (overlap_sym _ _ B) Q).
    - apply (f_equal (@rev _)) in Z. rewrite rev_involutive in Z. cbn [rev] in Z. subst m2.
      apply (overlapping_named sorted names m1 x y m3 O); [exact D|exact Q]. }
  rewrite (mem_text_in _ _ N) in K. discriminate.
Qed.

(** The sorting function for short lists is as expected. *)
Lemma insert_tail_perm x : forall l, Permutation (x :: l) (insert_tail x l).
Proof.
  induction l as [|y l IH]; cbn [insert_tail]; [apply Permutation_refl|].
  destruct (ordering (snd x) (snd y)); try apply Permutation_refl.
  eapply perm_trans; [apply perm_swap|]. apply perm_skip. exact IH.
Qed.
Lemma insert_tail_sorted all x : grouped all -> proper all -> In x all -> forall l, incl l all ->
  pairwise (fun b a => ordering (snd a) (snd b) <> Gt) l ->
  pairwise (fun b a => ordering (snd a) (snd b) <> Gt) (insert_tail x l).
Proof.
  intros G P Ix. induction l as [|y l IH]; intros I S; cbn [insert_tail]; [split; [constructor|exact Logic.I]|].
  destruct S as [S1 S2]. assert (Iy : In y all) by (apply I; left; reflexivity).
  pose proof (P x Ix) as Px.
  assert (K : ordering (snd x) (snd y) <> Lt ->
              Forall (fun a => ordering (snd a) (snd x) <> Gt) (y :: l)).
  { intros N. assert (N' : ~ sg_end (snd x) <= sg_start (snd y)) by (intros H; apply N, ordering_lt, H).
    constructor; [intros H; apply ordering_gt in H; lia|]. rewrite Forall_forall in *.
    intros z Hz H. apply ordering_gt in H. specialize (S1 z Hz).
    assert (Iz : In z all) by (apply I; right; exact Hz).
    pose proof (P z Iz). destruct (ordering (snd z) (snd y)) eqn:E; [| |contradiction].
    - apply ordering_eq in E. destruct (ordering (snd x) (snd y)) eqn:F.
      + apply ordering_eq in F. pose proof (G x y z Ix Iy Iz F (overlap_sym _ _ E)) as Q. unfold overlap in Q. lia.
      + contradiction.
      + apply ordering_gt in F. unfold overlap in E. lia.
    - apply ordering_lt in E. lia. }
  destruct (ordering (snd x) (snd y)) eqn:E.
  - split; [apply K; discriminate|split; assumption].
  - split.
    + apply Forall_forall. intros z Hz. apply (Permutation_in _ (Permutation_sym (insert_tail_perm x l))) in Hz.
      destruct Hz as [<-|Hz]; [rewrite E; discriminate|]. rewrite Forall_forall in S1. exact (S1 z Hz).
    + apply IH; [intros z Hz; apply I; right; exact Hz|exact S2].
  - split; [apply K; discriminate|split; assumption].
Qed.
Lemma pairwise_rev {A} (R : A -> A -> Prop) : forall l, pairwise (fun b a => R a b) l -> pairwise R (rev l).
Proof.
  assert (S : forall l x, pairwise R l -> Forall (fun a => R a x) l -> pairwise R (l ++ [x])).
  { induction l as [|y l IH]; intros x P F; cbn [app]; [split; [constructor|exact I]|].
    destruct P as [P1 P2]. inversion F; subst. split; [|apply IH; assumption].
    apply Forall_app. split; [exact P1|constructor; [assumption|constructor]]. }
  induction l as [|x l IH]; intros [H1 H2] || intros H; [exact I|]. cbn [rev]. apply S; [exact (IH H2)|].
  apply Forall_rev. exact H1.
Qed.
Lemma insertion_sort_sorts : sorts insertion_sort.
Proof.
  intros l sorted [= <-].
  assert (Pm : forall l acc, Permutation (acc ++ l) (fold_left (fun acc x => insert_tail x acc) l acc)).
  { clear l. induction l as [|x l IH]; intros acc; cbn [fold_left]; [rewrite app_nil_r; apply Permutation_refl|].
    eapply perm_trans; [|apply IH]. eapply perm_trans; [apply Permutation_sym, Permutation_middle|].
    change (x :: acc ++ l) with ((x :: acc) ++ l). apply Permutation_app_tail, insert_tail_perm. }
  split; [eapply perm_trans; [apply (Pm l [])|apply Permutation_rev]|].
  intros G P. apply pairwise_rev.
  assert (S : forall m acc, incl m l -> incl acc l ->
              pairwise (fun b a => ordering (snd a) (snd b) <> Gt) acc ->
              pairwise (fun b a => ordering (snd a) (snd b) <> Gt) (fold_left (fun acc x => insert_tail x acc) m acc)).
  { induction m as [|x m IH]; intros acc I1 I2 S; cbn [fold_left]; [exact S|]. apply IH.
    - intros z Hz. apply I1. right. exact Hz.
    - intros z Hz. apply (Permutation_in _ (Permutation_sym (insert_tail_perm x acc))) in Hz.
      destruct Hz as [<-|Hz]; [apply I1; left; reflexivity|exact (I2 z Hz)].
    - apply (insert_tail_sorted l x G P); [apply I1; left; reflexivity|exact I2|exact S]. }
  apply S; [apply incl_refl|intros z []|exact I].
Qed.

(** Three rules, two of which want to change the same part. *)
Definition C21_sugs : list (text * suggestion) :=
  [(txt "c", mkSug 7 9 [] []); (txt "a", mkSug 2 5 (txt "x") []); (txt "b", mkSug 3 4 [] [])]%string.
Example C21_case :
  sorts insertion_sort /\ grouped C21_sugs /\ proper C21_sugs /\
  match insertion_sort C21_sugs with
  | Done sorted => select_suggestions sorted = inr [mkSug 2 5 (txt "x") []; mkSug 7 9 [] []]%string
  | Crashed => False
  end.
Proof.
  split; [exact insertion_sort_sorts|split; [|split; [|vm_compute; reflexivity]]].
  - intros a b c Ha Hb Hc; cbn [In C21_sugs] in Ha, Hb, Hc. unfold overlap.
    repeat match goal with H : _ \/ _ |- _ => destruct H as [<-|H] | H : False |- _ => destruct H end;
      cbn [snd sg_start sg_end]; lia.
  - intros a Ha; cbn [In C21_sugs] in Ha.
    repeat match goal with H : _ \/ _ |- _ => destruct H as [<-|H] | H : False |- _ => destruct H end;
      cbn [snd sg_start sg_end]; lia.
Qed.

(** C22 in full: if a template parses cleanly and --fix succeeds, the result parses cleanly.
    Refuted by the same template: the two overlapping edits leave a parenthesis too many. *)
Theorem C22_fix_keeps_templates_valid_refuted :
  ~ (forall src t, parse_file true src = Done (t, []) ->
     forall fc rs dirty i, fix_default src = Ok (fc, rs, dirty, i) ->
     exists t', parse_file true (fc_source fc) = Done (t', [])).
Proof.
  intros H.
  assert (P : exists t, parse_file true overlap_template = Done (t, [])).
  { eexists. vm_compute. reflexivity. }
  destruct P as [t P]. specialize (H _ _ P).
  assert (E : match fix_default overlap_template with
              | Ok (fc, _, dirty, _) =>
                fc_source fc = txt "{{ a is same as(('c' and b))) }}"%string /\ dirty = true
              | _ => False
              end).
  { vm_compute. split; reflexivity. }
  destruct (fix_default overlap_template) as [[[[fc rs] dirty] i]| |] eqn:F; try contradiction.
  destruct (H fc rs dirty i eq_refl) as [t' Q]. destruct E as [E _]. rewrite E in Q. revert Q.
  vm_compute. intros Q. discriminate Q.
Qed.

Definition collision_template : text := txt "{{ a === (b === c) }}"%string.
(** C23 in full: --fix never ends with a collision inside one rule.  Refuted: nested === give
    nested suggestions of the same rule. *)
Theorem C23_no_rule_collides_with_itself_refuted :
  ~ (forall src name, fix_default src <> Err (OverlappingSuggestion name)).
Proof.
  intros H. apply (H collision_template (txt "twig-use-is-same-as"%string)). vm_compute. reflexivity.
Qed.

(** What remains of C23: the error is only raised when two suggestions of the named rule really
    overlap; with suggestions that do not overlap within a rule it never occurs. *)
Lemma overlapping_rules_sound : forall l name, overlapping_rules l = inl name ->
  exists m1 a b m2, l = m1 ++ (name, a) :: (name, b) :: m2 /\ overlap a b.
Proof.
  induction l as [|[ra a] l IH]; intros name E; [discriminate|].
  destruct l as [|[rb b] l'] eqn:L; [discriminate|]. rewrite <- L in *.
  assert (R : (ordering a b = Eq /\ ra = rb /\ name = ra) \/ overlapping_rules l = inl name).
  { cbn [overlapping_rules] in E. rewrite L in E at 1. destruct (ordering a b).
    - destruct (text_eqb ra rb) eqn:T.
      + left. injection E as <-. apply text_eqb_eq in T. repeat split; assumption.
      + right. destruct (overlapping_rules l); [injection E as ->; reflexivity|discriminate].
    - right. exact E.
    - right. exact E. }
  destruct R as [(R1 & <- & ->)|R].
  - exists [], a, b, l'. rewrite L. split; [reflexivity|]. apply ordering_eq. exact R1.
  - destruct (IH _ R) as (m1 & a' & b' & m2 & E' & O). exists ((ra, a) :: m1), a', b', m2.
    split; [cbn [app]; rewrite <- E'; reflexivity|exact O].
Qed.
Theorem C23_no_rule_collides_with_itself_partial : forall sorted name,
  select_suggestions sorted = inl (OverlappingSuggestion name) ->
  exists m1 a b m2, sorted = m1 ++ (name, a) :: (name, b) :: m2 /\ overlap a b.
Proof.
  intros sorted name E. unfold select_suggestions in E.
  destruct (overlapping_rules sorted) as [r|n] eqn:O; [|discriminate]. injection E as ->.
  apply overlapping_rules_sound. exact O.
Qed.
Example C23_case :
  select_suggestions [(txt "r", mkSug 2 5 [] []); (txt "r", mkSug 4 6 [] [])]%string
  = inl (OverlappingSuggestion (txt "r"%string)).
Proof. reflexivity. Qed.

(** * C24, C25, C27: the fix loop *)
Section Loop.
  Context (dbg : bool) (sort : list (text * suggestion) -> out (list (text * suggestion))) (cf : config).

  (** The results belong to the tree and the tree to the text. *)
  Definition consistent (fc : file_context) (rs : list result) : Prop :=
    parse_file dbg (fc_source fc) = Done (fc_tree fc, fc_errors fc) /\
    run_rules cf (fc_rules fc) (fc_tree fc) = Done rs.

  (** One round: [src'] is what applying the chosen suggestions to [src] gives, [fc'] its analysis. *)
  Definition round (fc : file_context) (rs : list result) (fc' : file_context) (rs' : list result) : Prop :=
    rule_suggestions rs <> [] /\ fc_rules fc' = fc_rules fc /\ consistent fc' rs' /\
    exists sorted chosen,
      sort (rule_suggestions rs) = Done sorted /\ select_suggestions sorted = inr chosen /\
      apply_suggestions chosen (fc_source fc) = Done (fc_source fc').
  Inductive rounds : nat -> file_context -> list result -> file_context -> list result -> Prop :=
  | rounds_none fc rs : rounds 0 fc rs fc rs
  | rounds_more n fc rs fc1 rs1 fc2 rs2 :
      round fc rs fc1 rs1 -> rounds n fc1 rs1 fc2 rs2 -> rounds (S n) fc rs fc2 rs2.

  Lemma fix_loop_ok : forall n i fc rs dirty fc' rs' dirty' i',
    fix_loop dbg sort cf n i fc rs dirty = Ok (fc', rs', dirty', i') ->
    exists k, i' = i + k /\ k < n /\ rounds k fc rs fc' rs' /\ rule_suggestions rs' = [] /\
              dirty' = (dirty || negb (Nat.eqb k 0)).
  Proof.
    induction n as [|n IH]; intros i fc rs dirty fc' rs' dirty' i' E; [discriminate|].
    cbn [fix_loop] in E. destruct (rule_suggestions rs) as [|s sugs] eqn:R.
    - injection E as <- <- <- <-. exists 0. split; [lia|]. split; [lia|]. split; [constructor|].
      split; [exact R|]. cbn. rewrite orb_false_r. reflexivity.
    - destruct (sort (s :: sugs)) as [sorted|] eqn:S; [|discriminate].
      destruct (select_suggestions sorted) as [e|chosen] eqn:C; [discriminate|].
      destruct (apply_suggestions chosen (fc_source fc)) as [src|] eqn:A; [|discriminate].
      destruct (parse_file dbg src) as [[t errs]|] eqn:P; [|discriminate].
      destruct (run_rules cf (fc_rules fc) t) as [rs1|] eqn:Q; [|discriminate].
      apply IH in E. destruct E as (k & -> & K & D & F & G). exists (Datatypes.S k).
      split; [lia|]. split; [lia|]. split; [|split; [exact F|rewrite G; cbn; rewrite orb_true_r; reflexivity]].
      apply (rounds_more k fc rs (mkFile src t errs (fc_rules fc)) rs1); [|exact D].
      split; [rewrite R; discriminate|]. split; [reflexivity|]. split; [split; assumption|].
      exists sorted, chosen. rewrite R. split; [exact S|split; [exact C|exact A]].
  Qed.

  Lemma rounds_consistent n fc rs fc' rs' :
    rounds n fc rs fc' rs' -> consistent fc rs -> consistent fc' rs' /\ fc_rules fc' = fc_rules fc.
  Proof.
    induction 1 as [|n fc rs fc1 rs1 fc2 rs2 R RS IH]; intros C; [split; [exact C|reflexivity]|].
    destruct R as (_ & R1 & R2 & _). destruct (IH R2) as [A B]. split; [exact A|congruence].
  Qed.

  (** C24: success means at most nine rounds, each of which applied the suggestions of the
      previous one, a text without suggestions and, if it is reported as unchanged, the given one. *)
  Theorem C24_fix_loop_is_bounded_and_honest : forall fc rs fc' rs' dirty i,
    consistent fc rs ->
    iteratively_apply_suggestions dbg sort cf fc rs = Ok (fc', rs', dirty, i) ->
    i <= 9 /\ rounds i fc rs fc' rs' /\
    consistent fc' rs' /\ rule_suggestions rs' = [] /\ fc_rules fc' = fc_rules fc /\
    (dirty = false -> fc' = fc /\ rs' = rs /\ i = 0) /\ (dirty = true -> i > 0).
  Proof.
    intros fc rs fc' rs' dirty i C E. apply fix_loop_ok in E.
    destruct E as (k & -> & K & D & F & G). cbn [plus orb] in *.
    destruct (rounds_consistent _ _ _ _ _ D C) as [C' R].
    split; [lia|]. split; [exact D|]. split; [exact C'|]. split; [exact F|]. split; [exact R|].
    subst dirty. destruct k as [|k]; cbn [Nat.eqb negb]; split; try discriminate; try lia.
    intros _. inversion D; subst. repeat split.
  Qed.

  (** If there still are suggestions after nine rounds that went well, the loop gives up: it never
      succeeds with anything else. *)
  Lemma fix_loop_more : forall n i fc rs dirty k fc' rs',
    rounds k fc rs fc' rs' -> k < n ->
    fix_loop dbg sort cf n i fc rs dirty
    = fix_loop dbg sort cf (n - k) (i + k) fc' rs' (dirty || negb (Nat.eqb k 0)).
  Proof.
    intros n i fc rs dirty k fc' rs' D. revert n i dirty.
    induction D as [fc rs|k fc rs fc1 rs1 fc2 rs2 R RS IH]; intros n i dirty K.
    - rewrite Nat.sub_0_r, Nat.add_0_r. cbn. rewrite orb_false_r. reflexivity.
    - destruct n as [|n]; [lia|]. destruct R as (R1 & R2 & (R3 & R4) & sorted & chosen & R5 & R6 & R7).
      assert (F : fc1 = mkFile (fc_source fc1) (fc_tree fc1) (fc_errors fc1) (fc_rules fc))
        by (rewrite <- R2; destruct fc1; reflexivity).
      cbn [fix_loop]. destruct (rule_suggestions rs) as [|s sugs]; [contradiction|].
      rewrite R5, R6, R7, R3, <- R2, R4, R2, <- F.
      rewrite IH by lia. cbn [Nat.sub Nat.eqb negb orb]. rewrite orb_true_r. f_equal. lia.
  Qed.
  Theorem C24_fix_loop_gives_up_with_an_error : forall fc rs fc' rs' fc10 rs10,
    rounds 9 fc rs fc' rs' -> round fc' rs' fc10 rs10 ->
    iteratively_apply_suggestions dbg sort cf fc rs = Err MaxApplyIteration.
  Proof.
    intros fc rs fc' rs' fc10 rs10 D R. unfold iteratively_apply_suggestions.
    rewrite (fix_loop_more 10 0 fc rs false 9 fc' rs' D) by lia.
    change (10 - 9) with 1.
    destruct R as (R1 & R2 & (R3 & R4) & sorted & chosen & R5 & R6 & R7).
    cbn [fix_loop]. destruct (rule_suggestions rs') as [|s sugs]; [contradiction|].
    rewrite R5, R6, R7, R3, <- R2, R4. reflexivity.
  Qed.

  (** * C25 *)
  Definition writes (l : list effect) : list text :=
    flat_map (fun e => match e with WriteFile c => [c] | _ => [] end) l.

  Lemma writes_app a b : writes (a ++ b) = writes a ++ writes b.
  Proof. apply flat_map_app. Qed.
  Lemma writes_sends l : Forall (fun e => exists x, e = Send x) l -> writes l = [].
  Proof. induction 1 as [|? ? [x ->] _ IH]; [reflexivity|exact IH]. Qed.
  Lemma diagnostics_writes inspect fc rs : writes (produce_diagnostics inspect fc rs ++ [Send OutputStderrMessage]) = [].
  Proof.
    apply writes_sends. unfold produce_diagnostics. rewrite !Forall_app. repeat split.
    - destruct inspect; repeat constructor. eexists; reflexivity.
    - apply Forall_map, Forall_forall. intros; eexists; reflexivity.
    - apply Forall_map, Forall_forall. intros; eexists; reflexivity.
    - repeat constructor. eexists; reflexivity.
  Qed.

  (** A file is written at most once, and only with --fix, after a loop that succeeded with
      changes, with the text the loop ended with. *)
  Theorem C25_files_change_only_through_a_successful_fix :
    forall fix_opt inspect write_ok definitions read effects o,
    file_task dbg sort cf fix_opt inspect write_ok definitions read = (effects, o) ->
    writes effects = [] \/
    exists content t errs rs fc' rs' i,
      fix_opt = true /\ read = Some content /\ parse_file dbg content = Done (t, errs) /\
      run_rules cf (get_file_active_rules (root_elem t) definitions) t = Done rs /\
      iteratively_apply_suggestions dbg sort cf
        (mkFile content t errs (get_file_active_rules (root_elem t) definitions)) rs
        = Ok (fc', rs', true, i) /\
      writes effects = [fc_source fc'].
  Proof.
    intros fix_opt inspect write_ok definitions read effects o E.
    assert (A : forall a b, writes (a ++ [Send b]) = writes a)
      by (intros a b; rewrite writes_app; cbn; apply app_nil_r).
    unfold file_task, process_file in E. destruct read as [content|].
    2: { injection E as <- <-. left. reflexivity. }
    assert (E' : exists effects' o', run_analysis dbg sort cf fix_opt inspect write_ok definitions content
                                   = (effects', o') /\ writes effects = writes effects').
    { destruct (run_analysis dbg sort cf fix_opt inspect write_ok definitions content) as [e2 o2].
      exists e2, o2. split; [reflexivity|]. destruct o2; injection E as <- <-; cbn [app]; try reflexivity.
      change (writes (e2 ++ [Send (Report SError)]) = writes e2). apply A. }
    clear E. destruct E' as (e2 & o2 & E & W). rewrite W. clear W effects o.
    unfold run_analysis in E. destruct (parse_file dbg content) as [[t errs]|] eqn:P.
    2: { injection E as <- <-. left. reflexivity. }
    destruct (run_rules cf (get_file_active_rules (root_elem t) definitions) t) as [rs|] eqn:R.
    2: { injection E as <- <-. left. reflexivity. }
    destruct fix_opt.
    2: { injection E as <- <-. left. apply diagnostics_writes. }
    destruct (iteratively_apply_suggestions dbg sort cf _ rs) as [[[[fc' rs'] dirty] i]|e|] eqn:I.
    2,3: injection E as <- <-; left; reflexivity.
    destruct dirty.
    2: { injection E as <- <-. left. apply diagnostics_writes. }
    right. exists content, t, errs, rs, fc', rs', i. repeat (split; [assumption || reflexivity|]).
    destruct write_ok; injection E as <- <-; [|reflexivity].
    cbn [writes flat_map]. fold (writes (produce_diagnostics inspect fc' rs' ++ [Send OutputStderrMessage])).
    rewrite diagnostics_writes. reflexivity.
  Qed.
  (** With C24: what is written differs from what was read only by rounds of suggestions, and no
      suggestion is left for it. *)
  Theorem C25_written_text_is_a_fixed_point :
    forall fix_opt inspect write_ok definitions content effects o c,
    file_task dbg sort cf fix_opt inspect write_ok definitions (Some content) = (effects, o) ->
    In (WriteFile c) effects ->
    exists t errs rules rs, parse_file dbg c = Done (t, errs) /\ incl rules definitions /\
      run_rules cf rules t = Done rs /\ rule_suggestions rs = [].
  Proof.
    intros fix_opt inspect write_ok definitions content effects o c E W.
    assert (W' : In c (writes effects)).
    { apply in_flat_map. exists (WriteFile c). split; [exact W|left; reflexivity]. }
    destruct (C25_files_change_only_through_a_successful_fix _ _ _ _ _ _ _ E)
      as [N|(content' & t & errs & rs & fc' & rs' & i & _ & C & P & R & I & N)].
    - rewrite N in W'. destruct W'.
    - injection C as <-. rewrite N in W'. destruct W' as [<-|[]].
      apply C24_fix_loop_is_bounded_and_honest in I; [|split; assumption].
      destruct I as (_ & _ & (P' & R') & S & F & _).
      exists (fc_tree fc'), (fc_errors fc'), (fc_rules fc'), rs'. repeat (split; [assumption|]).
      split; [|split; assumption]. rewrite F. cbn [fc_rules].
      unfold get_file_active_rules. destruct (disabled_rules _ _); [|intros r []].
      intros r Hr. apply filter_In in Hr. apply Hr.
  Qed.

  (** * C27 *)
  (** The rules that are active for a text. *)
  Definition active_for (definitions : list rule) (t : tree) : list rule :=
    get_file_active_rules (root_elem t) definitions.
  Theorem C27_fix_is_idempotent :
    forall inspect write_ok definitions content effects o c inspect2 write_ok2,
    file_task dbg sort cf true inspect write_ok definitions (Some content) = (effects, o) ->
    In (WriteFile c) effects ->
    (forall t errs t' errs', parse_file dbg content = Done (t, errs) -> parse_file dbg c = Done (t', errs') ->
       active_for definitions t' = active_for definitions t) ->
    exists effects2,
      file_task dbg sort cf true inspect2 write_ok2 definitions (Some c) = (effects2, Ok tt) /\
      writes effects2 = [].
  Proof.
    intros inspect write_ok definitions content effects o c inspect2 write_ok2 E W A.
    assert (W' : In c (writes effects)).
    { apply in_flat_map. exists (WriteFile c). split; [exact W|left; reflexivity]. }
    destruct (C25_files_change_only_through_a_successful_fix _ _ _ _ _ _ _ E)
      as [N|(content' & t & errs & rs & fc' & rs' & i & _ & C & P & R & I & N)].
    { rewrite N in W'. destruct W'. }
    injection C as <-. rewrite N in W'. destruct W' as [<-|[]].
    apply C24_fix_loop_is_bounded_and_honest in I; [|split; assumption].
    destruct I as (_ & _ & (P' & R') & S & F & _). cbn [fc_rules] in F.
    specialize (A _ _ _ _ P P'). unfold active_for in A.
    eexists. split.
    - unfold file_task, process_file, run_analysis. rewrite P'. rewrite A, <- F, R'.
      unfold iteratively_apply_suggestions. cbn [fix_loop]. rewrite S. reflexivity.
    - rewrite writes_app, diagnostics_writes. reflexivity.
  Qed.

  (** Also: a file that needed no fix is not written, now or later. *)
  Theorem C27_unchanged_files_stay_unchanged :
    forall inspect write_ok definitions content effects,
    file_task dbg sort cf true inspect write_ok definitions (Some content) = (effects, Ok tt) ->
    writes effects = [] ->
    exists t errs rs, parse_file dbg content = Done (t, errs) /\
      run_rules cf (active_for definitions t) t = Done rs /\ rule_suggestions rs = [].
  Proof.
    intros inspect write_ok definitions content effects E W.
    unfold file_task, process_file, run_analysis in E.
    destruct (parse_file dbg content) as [[t errs]|] eqn:P; [|discriminate].
    destruct (run_rules cf (get_file_active_rules (root_elem t) definitions) t) as [rs|] eqn:R; [|discriminate].
    destruct (iteratively_apply_suggestions dbg sort cf _ rs) as [[[[fc' rs'] dirty] i]|e|] eqn:I; try discriminate.
    apply C24_fix_loop_is_bounded_and_honest in I; [|split; assumption].
    destruct I as (_ & _ & _ & S & _ & D & _). destruct dirty.
    - destruct write_ok; injection E as <-; discriminate.
    - destruct (D eq_refl) as (_ & -> & _). exists t, errs, rs. repeat (split; [assumption || reflexivity|]). exact S.
  Qed.
End Loop.

(** A template that is fixed in two rounds and written. *)
Definition C24_template : text := txt "{{ a && ""b"" }}"%string.
Definition default_task (src : text) : list effect * outcome unit :=
  file_task true insertion_sort default_config true false true RULE_DEFINITIONS (Some src).
Example C24_case :
  match fix_default C24_template with
  | Ok (fc, rs, dirty, i) => fc_source fc = txt "{{ a and 'b' }}"%string /\ rs = [] /\ dirty = true /\ i = 1
  | _ => False
  end.
Proof. vm_compute. repeat split. Qed.
Example C25_case :
  In (WriteFile (txt "{{ a and 'b' }}"%string)) (fst (default_task C24_template)) /\
  writes (fst (file_task true insertion_sort default_config false false true RULE_DEFINITIONS (Some C24_template))) = [].
Proof. vm_compute. split; [|reflexivity]. right; right; left. reflexivity. Qed.
(** Both texts have the same active rules: there is no file-level directive. *)
Example C27_case :
  match parse_file true C24_template, parse_file true (txt "{{ a and 'b' }}"%string) with
  | Done (t, _), Done (t', _) =>
    map rl_name (active_for RULE_DEFINITIONS t') = map rl_name (active_for RULE_DEFINITIONS t)
  | _, _ => False
  end.
Proof. vm_compute. reflexivity. Qed.
(** A template whose fixes never settle: with windows_CRLF configured every round adds
    another carriage return, and the loop gives up. *)
Definition crlf_config : config :=
  let d := default_config in
  mkConfig (active_rules d) WindowsCRLF (cf_indentation_mode d) (cf_indentation_count d)
    (indent_children_of_blocks d) (linebreaks_around_blocks d) (twig_quotation d) (html_quotation d)
    (valid_filters d) (valid_tests d) (valid_functions d).
Example C24_case_gives_up :
  snd (file_task true insertion_sort crlf_config true false true RULE_DEFINITIONS (Some [97; 13; 10; 98]%N))
  = Err MaxApplyIteration.
Proof. vm_compute. reflexivity. Qed.

(** * C26 *)
(** In full: whatever is found after a crash during the rewrite is the old or the new text.
    Refuted: the file is truncated first and can be left empty or cut. *)
Theorem C26_crash_loses_nothing_refuted :
  ~ (forall old new found, In found (write_states old new) -> found = old \/ found = new).
Proof.
  intros H. destruct (H (txt "{{ a && b }}") (txt "{{ a and b }}") [])%string as [E|E].
  - right. left. reflexivity.
  - discriminate.
  - discriminate.
Qed.
(** The refutation is reached by the tool: this text is written by --fix. *)
Example C26_case :
  In (WriteFile (txt "{{ a and b }}"%string)) (fst (default_task (txt "{{ a && b }}"%string))).
Proof. vm_compute. right; right; left. reflexivity. Qed.

Print Assumptions C20_edits_are_applied_exactly.
Print Assumptions C20_edited_text_is_unique.
Print Assumptions C21_no_overlapping_edits_refuted.
Print Assumptions C21_no_overlapping_edits_partial.
Print Assumptions C22_fix_keeps_templates_valid_refuted.
Print Assumptions C23_no_rule_collides_with_itself_refuted.
Print Assumptions C23_no_rule_collides_with_itself_partial.
Print Assumptions C24_fix_loop_is_bounded_and_honest.
Print Assumptions C24_fix_loop_gives_up_with_an_error.
Print Assumptions C25_files_change_only_through_a_successful_fix.
Print Assumptions C25_written_text_is_a_fixed_point.
Print Assumptions C26_crash_loses_nothing_refuted.
Print Assumptions C27_fix_is_idempotent.
Print Assumptions C27_unchanged_files_stay_unchanged.
