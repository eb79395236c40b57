(** Property theorems about line endings: C67 and C68. *)
From Coq Require Import NArith String Bool Permutation Lia Arith List.
Import ListNotations.
From Verif Require Import Shape PropShape PropSkel Text Kind Regex Lexer LexerProofs PropLexer ParserApi Machine TreeSpec PropParser Red Typed Rule Rules Check Process DefaultConfig RedFacts WalkSpec PropProcess PropRun PropTree PropFits PropLines Layout LexLayout LayoutRoot PropLayout PropIndent Endings LexEndings.
Local Open Scope list_scope.
Local Notation length := List.length (only parsing).

(** * C67: indentation, empty lines and line endings do not matter to the parser *)

(** Two templates that differ in nothing but the indentation of their lines, empty lines and the
    kind of their line endings are parsed to the same tree up to white space, with the same
    errors in the same order - or both panic in the same place.  Left out: lines with a Windows
    ending after a further carriage return, [not in] or [is not]. *)
Theorem C67_layout_is_irrelevant_partial : forall dbg s s', same_layout s s' -> steady s -> steady s' ->
  same_parse (parse_src dbg s) (parse_src dbg s').
Proof.
  intros dbg s s' H S S'. destruct (same_layout_tokens s s' H S S') as (g & g' & r & r' & E & E' & G & G' & F & F' & HR).
  unfold parse_src. pose proof (lexed_blanks _ _ _ (lex_lexed s)) as B. pose proof (lexed_blanks _ _ _ (lex_lexed s')) as B'.
  rewrite E, E' in *. now apply parse_layout.
Qed.

(** Deciding [steady], for the concrete cases. *)
Definition ends_withb (w l : text) : bool := text_eqb (skipn (length l - length w) l) w.
Lemma ends_withb_complete w l : ends_with w l -> ends_withb w l = true.
Proof.
  intros (p & ->). unfold ends_withb. rewrite app_length. replace (length p + length w - length w) with (length p) by lia.
  rewrite skipn_app, skipn_all, Nat.sub_diag. apply text_eqb_eq. reflexivity.
Qed.
Definition steadyb (s : text) : bool :=
  forallb (fun l => forallb (fun w => negb (ends_withb (w ++ [13%N]) l)) unsteady) (removelast (lines s)).
Lemma steadyb_sound s : steadyb s = true -> steady s.
Proof.
  intros H l Hl w Hw X. apply ends_withb_complete in X. unfold steadyb in H. rewrite forallb_forall in H.
  specialize (H l Hl). rewrite forallb_forall in H. specialize (H w Hw). rewrite X in H. discriminate H.
Qed.

Definition end_a : text := Eval vm_compute in
  txt "{% block a %}"%string ++ [10]%N ++ txt "<p :b c=1>"%string ++ [10; 10]%N ++ txt "{{ x is not defined"%string ++ [10]%N ++ txt " }}</q>"%string ++ [10]%N.
Definition end_b : text := Eval vm_compute in
  [13; 10]%N ++ txt "  {% block a %}"%string ++ [13; 10; 32; 13; 10]%N ++ txt "    <p :b c=1>"%string ++ [13; 10]%N ++
  txt "{{ x is not defined"%string ++ [13; 10; 9]%N ++ txt "}}</q>"%string ++ [10; 10; 13; 10]%N.
Example C67_case_layout : same_layout end_a end_b /\ steady end_a /\ steady end_b /\ ~ same_lines end_a end_b.
Proof.
  split; [vm_compute; reflexivity|]. split; [apply steadyb_sound; vm_compute; reflexivity|].
  split; [apply steadyb_sound; vm_compute; reflexivity|]. vm_compute. discriminate.
Qed.
Example C67_case_layout_parses :
  match parse_src true end_a, parse_src true end_b with
  | OK (t, e :: _), OK (t', e' :: _) => bare t = bare t' /\ t <> t' /\ err_start e <> err_start e'
  | _, _ => False
  end.
Proof. vm_compute. repeat split; discriminate. Qed.

(** In full it is refuted: [is not] before a Windows line ending is not taken as one operator. *)
Fixpoint tree_size (t : tree) : nat := match t with Leaf _ _ => 1 | Node _ cs => S (list_sum (map tree_size cs)) end.
Definition two_words : text := Eval vm_compute in txt "{{ a is not"%string ++ [13; 10]%N ++ txt "defined }}"%string.
Definition same_size (x x' : res (tree * list perror)) : bool :=
  match x, x' with
  | OK (t, _), OK (t', _) => Nat.eqb (list_sum (map tree_size (bare t))) (list_sum (map tree_size (bare t')))
  | _, _ => true
  end.
Lemma same_parse_size x x' : same_parse x x' -> same_size x x' = true.
Proof.
  destruct x as [[t e]| |], x' as [[t' e']| |]; cbn [same_parse same_size]; auto. intros [-> _]. apply Nat.eqb_refl.
Qed.
Theorem C67_layout_is_irrelevant_refuted :
  ~ (forall dbg s s', same_layout s s' -> same_parse (parse_src dbg s) (parse_src dbg s')).
Proof.
  intros H. assert (E : same_layout two_words (unix two_words)) by (vm_compute; reflexivity).
  assert (N : same_size (parse_src true two_words) (parse_src true (unix two_words)) = false) by (vm_compute; reflexivity).
  exact (diff_false_true (eq_trans (eq_sym N) (same_parse_size _ _ (H true two_words (unix two_words) E)))).
Qed.

(** * C68: fixing line endings, too *)

(** The three rules that only change white space that is there. *)
Definition layout_rules_3 : list rule := [rule_indentation; rule_whitespace_between_line_breaks; rule_line_ending].

(** ** The edits *)
Definition crlf_edit (src : text) (s : suggestion) : Prop :=
  exists a b, src = a ++ [13%N; 10%N] ++ b /\ blen a = sg_start s /\ sg_end s = sg_start s + 2 /\ sg_text s = [10%N].
Definition layout_edit (src : text) (s : suggestion) : Prop := indent_edit src s \/ crlf_edit src s.

Lemma unix_app_start a x : line_start a -> unix (a ++ x) = unix a ++ unix x /\ line_start (unix a).
Proof.
  assert (C : forall c d s, unix (c :: d :: s) = if N.eqb c 13 && N.eqb d 10 then unix (d :: s) else c :: unix (d :: s)) by reflexivity.
  intros [->|(a' & ->)]; [split; [reflexivity|now left]|].
  induction a' as [|c a' [IH1 IH2]]; [split; [apply unix_cons; reflexivity|right; now exists []]|].
  cbn [app]. assert (E : exists d s, a' ++ [10%N] = d :: s) by (destruct a'; cbn [app]; eauto). destruct E as (d & s & E).
  rewrite E in *. cbn [app] in *. rewrite !C, IH1. destruct (N.eqb c 13 && N.eqb d 10); [auto|]. split; [reflexivity|].
  destruct IH2 as [IH2|(z & IH2)]; [|right; rewrite IH2; now exists (c :: z)].
  exfalso. clear -IH2. assert (X : forall q y, unix (y :: q) <> []).
  { induction q as [|e q IH]; intros y; [discriminate|]. cbn [unix]. destruct (_ && _); [apply IH|discriminate]. }
  exact (X _ _ IH2).
Qed.
Lemma unix_blanks old x : blanks old -> unix (old ++ x) = old ++ unix x.
Proof.
  induction 1 as [|c old Hc H IH]; [reflexivity|]. cbn [app]. rewrite unix_cons, IH; [reflexivity|].
  destruct (blankc_cases c Hc) as [->| ->]; reflexivity.
Qed.
Lemma unix_replace_blanks a old new x : line_start a -> blanks old -> blanks new ->
  same_lines (unix (a ++ old ++ x)) (unix (a ++ new ++ x)).
Proof.
  intros A O N. rewrite !(proj1 (unix_app_start a _ A)), !unix_blanks by assumption.
  apply replace_blanks; auto. apply (unix_app_start a [] A).
Qed.

Lemma unindented_suffix l : exists b, l = b ++ unindented l /\ blanks b.
Proof.
  induction l as [|c l (b & E & B)]; [exists []; split; [reflexivity|constructor]|]. cbn [unindented]. fold (blankc c).
  destruct (blankc c) eqn:H; [|exists []; split; [reflexivity|constructor]].
  exists (c :: b). split; [cbn [app]; congruence|now constructor].
Qed.
Lemma app_longer (p w b u : text) : p ++ w = b ++ u -> (exists q, u = q ++ w) \/ (exists c q, w = (c :: q) ++ u /\ exists p', b = p' ++ c :: q).
Proof.
  revert b. induction p as [|x p IH]; intros b E.
  - cbn [app] in E. destruct b as [|c b]; [left; now exists []|]. right. exists c, b. split; [exact E|]. now exists [].
  - destruct b as [|c b]; cbn [app] in E; [left; exists (x :: p); now symmetry|]. injection E as -> E.
    destruct (IH b E) as [H|(c' & q & H & p' & ->)]; [now left|]. right. exists c', q. split; [exact H|]. now exists (c :: p').
Qed.
Lemma steady_unindented l : steady_line (unindented l) <-> steady_line l.
Proof.
  destruct (unindented_suffix l) as (b & E & B). split; intros H w Hw.
  - intros (p & X). rewrite E in X. symmetry in X. apply app_longer in X as [X|(c & q & X & p' & ->)]; [exact (H w Hw X)|].
    apply Forall_app in B as [_ B]. inversion B as [|? ? Hc _]; subst.
    cbn [unsteady In] in Hw. destruct Hw as [<-|[<-|[<-|[]]]]; cbn [app txt] in X; injection X as <- _; discriminate Hc.
  - intros X. apply (H w Hw). rewrite E. now apply ends_with_suffix.
Qed.
Lemma removelast_map {A B} (f : A -> B) l : removelast (map f l) = map f (removelast l).
Proof. induction l as [|x l IH]; [reflexivity|]. cbn [map]. destruct l as [|y l]; [reflexivity|]. cbn [map removelast] in *. now rewrite IH. Qed.
Lemma steady_same_lines s s' : same_lines s s' -> steady s -> steady s'.
Proof.
  intros E S l Hl. apply steady_unindented. apply (in_map unindented) in Hl. rewrite <- removelast_map, <- E, removelast_map in Hl.
  apply in_map_iff in Hl as (l1 & <- & H1). apply steady_unindented. exact (S _ H1).
Qed.

Lemma ends_cons c a : ends_with [13%N] (c :: a) -> (a = [] /\ c = 13%N) \/ ends_with [13%N] a.
Proof.
  intros (p & E). destruct p as [|x p]; cbn [app] in E; [injection E as -> ->; now left|]. injection E as _ ->. right. now exists p.
Qed.
Lemma lines_mid a : exists L l0, (ends_with [13%N] a -> ends_with [13%N] l0) /\
  forall x, lines (a ++ 10%N :: x) = L ++ l0 :: lines x /\ lines (a ++ 13%N :: 10%N :: x) = L ++ (l0 ++ [13%N]) :: lines x.
Proof.
  induction a as [|c a (L & l0 & A & H)].
  - exists [], []. split; [auto|]. intros x. split; reflexivity.
  - destruct (N.eqb c 10) eqn:Ec.
    + exists ([] :: L), l0. split.
      { intros X. apply ends_cons in X as [[_ ->]|X]; [discriminate Ec|auto]. }
      intros x. destruct (H x) as [H1 H2]. cbn [app lines]. rewrite Ec, H1, H2. split; reflexivity.
    + destruct L as [|l L].
      * exists [], (c :: l0). split.
        { intros X. apply ends_cons in X as [[-> ->]|X]; [|now apply (ends_with_suffix _ [c]), A].
          destruct (H []) as [H1 _]. cbn in H1. injection H1 as <-. now exists []. }
        intros x. destruct (H x) as [H1 H2]. cbn [app lines] in *. rewrite Ec, H1, H2. split; reflexivity.
      * exists ((c :: l) :: L), l0. split.
        { intros X. apply ends_cons in X as [[-> _]|X]; [|auto]. destruct (H []) as [H1 _].
          apply (f_equal (@length _)) in H1. cbn [app lines length N.eqb Pos.eqb] in H1. rewrite app_length in H1. cbn [length] in H1. lia. }
        intros x. destruct (H x) as [H1 H2]. cbn [app lines] in *. rewrite Ec, H1, H2. split; reflexivity.
Qed.
Lemma removelast_mid {A} (L : list A) l r : r <> [] -> removelast (L ++ l :: r) = L ++ l :: removelast r.
Proof.
  intros N. rewrite removelast_app by discriminate. f_equal. destruct r; [contradiction|reflexivity].
Qed.
Lemma unix_app a x : ~ ends_with [13%N] a -> unix (a ++ x) = unix a ++ unix x.
Proof.
  assert (C : forall c d s, unix (c :: d :: s) = if N.eqb c 13 && N.eqb d 10 then unix (d :: s) else c :: unix (d :: s)) by reflexivity.
  induction a as [|c a IH]; intros H; [reflexivity|].
  assert (IH' : unix (a ++ x) = unix a ++ unix x) by (apply IH; intros X; apply H; now apply (ends_with_suffix _ [c])).
  destruct a as [|d a].
  - cbn [app]. apply unix_cons. apply N.eqb_neq. intros ->. apply H. now exists [].
  - cbn [app] in *. rewrite !C, IH'. destruct (_ && _); reflexivity.
Qed.
Lemma replace_crlf a x : steady (a ++ [13%N; 10%N] ++ x) ->
  unix (a ++ [13%N; 10%N] ++ x) = unix (a ++ [10%N] ++ x) /\ steady (a ++ [10%N] ++ x).
Proof.
  intros S. destruct (lines_mid a) as (L & l0 & A & H). destruct (H x) as [H1 H2]. cbn [app].
  assert (Nx : lines x <> []) by apply lines_not_nil.
  assert (S0 : forall l, In l (L ++ (l0 ++ [13%N]) :: removelast (lines x)) -> steady_line l).
  { intros l Hl. apply S. cbn [app]. rewrite H2, removelast_mid by exact Nx. exact Hl. }
  assert (N0 : ~ ends_with [13%N] l0).
  { intros (p & E). apply (S0 (l0 ++ [13%N])) with (w := [13%N]); [apply in_elt|cbn; auto|]. exists p. rewrite E, <- app_assoc. reflexivity. }
  split.
  - assert (Na : ~ ends_with [13%N] a) by auto.
    rewrite !unix_app by exact Na. now rewrite unix_crlf, unix_cons.
  - intros l Hl. rewrite H1, removelast_mid in Hl by exact Nx. apply in_app_or in Hl as [Hl|[<-|Hl]].
    + apply S0. apply in_or_app. now left.
    + intros w Hw (p & E). apply N0. exists (p ++ w). rewrite E, app_assoc. reflexivity.
    + apply S0. apply in_or_app. right. now right.
Qed.

Lemma edited_layout : forall edits pre t new, edited (blen pre) t edits new ->
  Forall (layout_edit (pre ++ t)) edits -> steady (pre ++ t) ->
  same_lines (unix (pre ++ t)) (unix (pre ++ new)) /\ steady (pre ++ new).
Proof.
  induction edits as [|s edits IH]; intros pre t new D F S; inversion D as [|? keep old rest ? ? n S1 S2 D' E1 E2 E3]; subst; [split; [reflexivity|exact S]|].
  inversion F as [|? ? F0 F']; subst.
  destruct (IH (pre ++ keep ++ old) rest n) as [I1 I2].
  { rewrite !blen_app. replace (blen pre + (blen keep + blen old)) with (sg_end s) by lia. exact D'. }
  { rewrite <- !app_assoc. exact F'. }
  { rewrite <- !app_assoc. exact S. }
  assert (E1 : forall r, (pre ++ keep ++ old) ++ r = pre ++ keep ++ old ++ r) by (intros r; rewrite <- !app_assoc; reflexivity).
  rewrite !E1 in I1. rewrite E1 in I2. unfold same_lines in I1 |- *. rewrite I1. clear I1 E1.
  destruct F0 as [(a & o & b & Es & A & O & N & L1 & L2)|(a & b & Es & L1 & L2 & Tx)].
  - assert (Q : (pre ++ keep) ++ old ++ rest = a ++ o ++ b) by (rewrite <- Es, <- app_assoc; reflexivity).
    apply blen_inj in Q as [<- Q]; [|rewrite blen_app; lia]. apply blen_inj in Q as [<- <-]; [|lia].
    pose proof (unix_replace_blanks (pre ++ keep) old (sg_text s) n A O N) as R. rewrite <- !app_assoc in R. split; [exact R|].
    pose proof (replace_blanks (pre ++ keep) old (sg_text s) n A O N) as R'. rewrite <- !app_assoc in R'. exact (steady_same_lines _ _ R' I2).
  - assert (Q : (pre ++ keep) ++ old ++ rest = a ++ [13%N; 10%N] ++ b) by (rewrite <- Es, <- app_assoc; reflexivity).
    apply blen_inj in Q as [<- Q]; [|rewrite blen_app; lia]. apply blen_inj in Q as [-> <-]; [|change (blen [13%N; 10%N]) with 2; lia].
    rewrite Tx. destruct (replace_crlf (pre ++ keep) n) as [R1 R2]; [rewrite <- app_assoc; exact I2|].
    rewrite <- !app_assoc in R1. rewrite <- !app_assoc in R2. split; [rewrite R1; reflexivity|exact R2].
Qed.

(** ** What the three rules suggest *)
Section Suggested3.
  Context (dbg : bool) (src : text) (t : tree) (cf : config).
  Hypothesis (P : parse_file dbg src = Done (t, [])) (D : directives_name_rules t) (U : cf_line_ending cf = UnixLF).

  (** A Windows line ending in a line break of the tree. *)
  Definition in_break (s : suggestion) : Prop :=
    exists x pre post, In x (elements t) /\ is_node (el_tree x) = false /\ el_kind x = TK_LINE_BREAK /\
      el_text x = pre ++ [13%N; 10%N] ++ post /\ sg_start s = el_start x + blen pre /\ sg_end s = sg_start s + 2 /\ sg_text s = [10%N].
  Definition fine3 (s : suggestion) : Prop := fine src t s \/ in_break s.

  Lemma in_break_edit s : in_break s -> crlf_edit src s.
  Proof.
    intros (x & pre & post & I & N & K & E & S1 & S2 & Tx).
    destruct (within_text t x (elements_within _ _ I)) as (a & b & E' & L). rewrite (source dbg src t P) in E'.
    exists (a ++ pre), (post ++ b). split; [rewrite E', E, <- !app_assoc; reflexivity|]. rewrite blen_app. repeat split; try assumption; lia.
  Qed.
  Lemma fine3_edit s : fine3 s -> layout_edit src s.
  Proof. intros [[H _]|H]; [now left|right; now apply in_break_edit]. Qed.
  Lemma layout_edit_fits s : layout_edit src s -> fits src s.
  Proof.
    intros [H|(a & b & E & L1 & L2 & _)]; [now apply indent_edit_fits|]. split; [lia|]. split.
    - exists a, ([13%N; 10%N] ++ b). auto.
    - exists (a ++ [13%N; 10%N]), b. rewrite E, <- app_assoc, blen_app. change (blen [13%N; 10%N]) with 2. split; [reflexivity|lia].
  Qed.

  (** Edits that overlap are for the same place. *)
  Lemma crlf_overlap a b : crlf_edit src a -> crlf_edit src b -> overlap a b -> sg_start a = sg_start b /\ sg_end a = sg_end b.
  Proof.
    assert (G : forall a b, crlf_edit src a -> crlf_edit src b -> sg_start a <= sg_start b -> overlap a b -> sg_start a = sg_start b).
    { clear a b. intros a b (pa & qa & Ea & La & Sa & _) (pb & qb & Eb & Lb & Sb & _) Le [O1 O2].
      rewrite Ea in Eb. destruct (blen_prefix pa _ pb _ Eb) as (m & -> & Em); [lia|]. rewrite blen_app in Lb.
      destruct m as [|c m]; [cbn in Lb; lia|]. exfalso. cbn [app] in Em. injection Em as <- Em.
      change (blen (13%N :: m)) with (1 + blen m) in Lb. destruct m as [|d m]; cbn [app] in Em; [discriminate Em|].
      injection Em as <- _. change (blen (10%N :: m)) with (1 + blen m) in Lb. lia. }
    intros A B O. pose proof A as (_ & _ & _ & _ & Sa & _). pose proof B as (_ & _ & _ & _ & Sb & _).
    destruct (Nat.le_ge_cases (sg_start a) (sg_start b)) as [L|L].
    - pose proof (G a b A B L O). lia.
    - pose proof (G b a B A L (overlap_sym _ _ O)). lia.
  Qed.
  Lemma mixed_overlap a b : fine src t a -> in_break b -> ~ overlap a b.
  Proof.
    intros [(p & old & q & E & _ & O & _ & L1 & L2) (x & Ix & Nx & Sx & Ex)] (y & pre & post & Iy & Ny & Ky & Ey & S1 & S2 & _) [O1 O2].
    pose proof (start_end x). pose proof (start_end y).
    assert (B1 : el_start y <= sg_start b) by lia.
    assert (B2 : sg_end b <= el_end y) by (rewrite el_end_text, Ey, !blen_app; change (blen [13%N; 10%N]) with 2; lia).
    destruct (tokens_apart t x y Ix Iy Nx Ny) as [->|[A|A]]; [|lia|lia].
    destruct Ex as [Ex|Ex]; [|lia].
    destruct (within_text t y (elements_within _ _ Iy)) as (a' & b' & E' & L). rewrite (source dbg src t P), E in E'.
    apply blen_inj in E' as [-> E']; [|lia]. apply blen_inj in E' as [-> _]; [|rewrite el_end_text in Ex; lia].
    rewrite Ey in O. apply Forall_app in O as [_ O]. inversion O as [|? ? Hc _]; subst. discriminate Hc.
  Qed.
  Lemma fine3_overlap a b : fine3 a -> fine3 b -> overlap a b -> sg_start a = sg_start b /\ sg_end a = sg_end b.
  Proof.
    intros [A|A] [B|B] O.
    - exact (sits_overlap t a b (proj2 A) (proj2 B) O).
    - destruct (mixed_overlap a b A B O).
    - destruct (mixed_overlap b a B A (overlap_sym _ _ O)).
    - apply crlf_overlap; auto using in_break_edit.
  Qed.
  Lemma fine3_grouped l : Forall (fun p : text * suggestion => fine3 (snd p)) l -> grouped l /\ proper l.
  Proof.
    intros F. rewrite Forall_forall in F. split.
    - intros a b c Ha Hb Hc O1 O2. destruct (fine3_overlap _ _ (F a Ha) (F b Hb) O1) as [E1 E2]. unfold overlap in *. lia.
    - intros a Ha. apply (layout_edit_fits _ (fine3_edit _ (F a Ha))).
  Qed.

  (** ** All suggestions of a run *)
  Lemma roots_incl3 : forall rules roots, incl rules layout_rules_3 -> run_roots cf rules (root_elem t) = Done roots ->
    incl roots (indentation_results t cf).
  Proof.
    induction rules as [|r rules IH]; intros roots I H; cbn [run_roots] in H; [injection H as <-; intros x []|].
    destruct (rl_root r (mkCtx cf false) (root_elem t)) as [a|] eqn:A; [|discriminate].
    destruct (run_roots cf rules (root_elem t)) as [b|] eqn:B; [|discriminate]. injection H as <-.
    apply incl_app; [|apply IH; [intros x Hx; apply I; now right|reflexivity]].
    destruct (I r (or_introl eq_refl)) as [<-|[<-|[<-|[]]]]; cbn [rl_root rule_indentation rule_whitespace_between_line_breaks rule_line_ending no_root] in A.
    - unfold indentation_results. rewrite A. apply incl_refl.
    - injection A as <-. intros x [].
    - injection A as <-. intros x [].
  Qed.
  Lemma line_ending_fine flag e r : In e (elements t) -> is_node (el_tree e) = false ->
    In r (rl_token rule_line_ending (mkCtx cf flag) e) ->
    rs_rule r = txt "line-ending"%string /\ exists s, rs_suggestions r = [s] /\ in_break s /\ el_start e <= sg_start s /\ sg_end s <= el_end e.
  Proof.
    intros I N Hr. cbn [rl_token rule_line_ending cx_config] in Hr. destruct (kind_eqb (el_kind e) TK_LINE_BREAK) eqn:K; cbn [negb] in Hr; [|destruct Hr].
    apply kind_eqb_eq in K. rewrite U in Hr. apply in_map_iff in Hr as ([m1 m2] & <- & Hm). split; [reflexivity|].
    eexists. split; [reflexivity|]. cbn [fst snd sg_start sg_end].
    apply (find_unix_exact (length (el_text e)) (el_text e) 0 (le_n _) m1 m2) in Hm as (pre & post & E & L1 & L2).
    assert (B : el_start e + m2 <= el_end e) by (rewrite el_end_text, E, !blen_app; change (blen [CR; LF]) with 2; lia).
    split; [|lia]. exists e, pre, post. cbn [sg_start sg_end sg_text]. repeat split; auto; lia.
  Qed.
  Lemma checked_fine3 rules flag e : incl rules layout_rules_3 -> In e (elements t) ->
    Forall (fun r => Forall fine3 (rs_suggestions r)) (checked cf rules flag e).
  Proof.
    intros I Ie. apply Forall_forall. intros r Hr. unfold checked in Hr. apply in_flat_map in Hr as (rl & Hrl & Hr).
    destruct (switched_off (rl_name rl) e); [destruct Hr|].
    destruct (I rl Hrl) as [<-|[<-|[<-|[]]]].
    - destruct (is_node (el_tree e)); destruct Hr.
    - destruct (is_node (el_tree e)) eqn:N; [destruct Hr|].
      destruct (empty_line_result dbg src t P (mkCtx cf flag) e Ie N) as [E|(r' & s & E & A & B & C & F)]; rewrite E in Hr; [destruct Hr|].
      destruct Hr as [<-|[]]. rewrite B. constructor; [now left|constructor].
    - destruct (is_node (el_tree e)) eqn:N; [destruct Hr|].
      destruct (line_ending_fine flag e r Ie N Hr) as (_ & s & -> & H & _). constructor; [now right|constructor].
  Qed.
  Lemma run_fine3 rules rs : incl rules layout_rules_3 -> run_rules cf rules t = Done rs ->
    Forall (fun p => fine3 (snd p)) (rule_suggestions rs).
  Proof.
    intros I R. destruct rules as [|r0 rules']; [injection R as <-; constructor|].
    destruct (C15_ignore_directives_have_exact_scope _ _ _ _ R) as (roots & flag & A & ->); [discriminate|].
    rewrite suggested_app. apply Forall_app. split.
    - apply roots_incl3 in A; [|exact I]. destruct (indentation_results_fine dbg src t cf P D) as (_ & F & _).
      apply Forall_forall. intros p Hp. apply in_flat_map in Hp as (r & Hr & Hp). apply in_map_iff in Hp as (s & <- & Hs).
      rewrite Forall_forall in F. left. apply F. apply in_flat_map. exists r. auto.
    - apply Forall_forall. intros p Hp. apply in_flat_map in Hp as (r & Hr & Hp). apply in_map_iff in Hp as (s & <- & Hs).
      apply in_flat_map in Hr as (e & He & Hr). apply filter_In in He as [He _].
      pose proof (checked_fine3 _ (flag e) e I He) as F. rewrite Forall_forall in F. specialize (F r Hr). rewrite Forall_forall in F. exact (F s Hs).
  Qed.

  Lemma round3 sort rules rs sorted chosen : sorts sort -> incl rules layout_rules_3 -> steady src -> run_rules cf rules t = Done rs ->
    sort (rule_suggestions rs) = Done sorted -> select_suggestions sorted = inr chosen ->
    exists new, apply_suggestions chosen src = Done new /\ same_lines (unix src) (unix new) /\ steady new.
  Proof.
    intros C I St R S E. pose proof (run_fine3 _ _ I R) as F. destruct (fine3_grouped _ F) as [G Pr].
    pose proof (C21_no_overlapping_edits_partial _ _ _ _ C S E G Pr) as NO. destruct (C _ _ S) as [Pm Sd]. specialize (Sd G Pr).
    assert (O : in_order chosen).
    { assert (PW : pairwise (fun a b => ordering a b <> Gt) chosen).
      { unfold select_suggestions in E. destruct (overlapping_rules sorted); [discriminate|]. injection E as <-.
        apply pairwise_map_filter. eapply pairwise_impl; [|exact Sd]. intros a b H _ . exact H. }
      clear -NO PW. induction chosen as [|x l IH]; [constructor|]. destruct NO as [N1 N2], PW as [W1 W2]. constructor; [|auto].
      apply Forall_forall. intros y Hy. rewrite Forall_forall in N1, W1. specialize (N1 y Hy). specialize (W1 y Hy).
      apply ordering_lt. destruct (ordering x y) eqn:Q; [|reflexivity|contradiction]. apply ordering_eq in Q. contradiction. }
    assert (IE : Forall (layout_edit src) chosen).
    { apply Forall_forall. intros s Hs. destruct (chosen_incl _ _ E s Hs) as (p & Hp & <-).
      rewrite Forall_forall in F. apply fine3_edit, F. apply (Permutation_in _ (Permutation_sym Pm)). exact Hp. }
    destruct (C20_edits_are_applied_exactly src chosen O) as (new & A & Ed).
    { revert IE. apply Forall_impl. exact layout_edit_fits. }
    exists new. split; [exact A|]. apply (edited_layout chosen [] src new Ed IE St).
  Qed.

  (** ** No rule collides with itself *)
  Definition apart (a b : text * suggestion) : Prop := fst a = fst b -> ~ overlap (snd a) (snd b).
  Lemma pairwise_flat {A B} (R : B -> B -> Prop) (f : A -> list B) : forall l, (forall x, In x l -> pairwise R (f x)) ->
    pairwise (fun x y => forall a b, In a (f x) -> In b (f y) -> R a b) l -> pairwise R (flat_map f l).
  Proof.
    induction l as [|x l IH]; intros H1 H2; [exact I|]. destruct H2 as [H2 H3]. cbn [flat_map]. apply pairwise_app.
    - apply H1. now left.
    - apply IH; [intros y Hy; apply H1; now right|exact H3].
    - intros a b Ha Hb. apply in_flat_map in Hb as (y & Hy & Hb). rewrite Forall_forall in H2. exact (H2 y Hy a b Ha Hb).
  Qed.
  Lemma pairwise_filter {A} (R : A -> A -> Prop) f : forall l, pairwise R l -> pairwise R (filter f l).
  Proof.
    induction l as [|x l IH]; intros H; [exact I|]. destruct H as [H1 H2]. cbn [filter]. destruct (f x); [|auto]. split; [|auto].
    apply Forall_forall. intros y Hy. apply filter_In in Hy as [Hy _]. rewrite Forall_forall in H1. auto.
  Qed.
  Lemma suggested_flat {A} (f : A -> list result) l : rule_suggestions (flat_map f l) = flat_map (fun x => rule_suggestions (f x)) l.
  Proof. induction l as [|x l IH]; [reflexivity|]. cbn [flat_map]. rewrite suggested_app, IH. reflexivity. Qed.
  Lemma find_from r : forall s skip off m, In m (find_iter r skip off s) -> off <= fst m.
  Proof.
    induction s as [|c s IH]; intros skip off m H; [destruct H|]. cbn [find_iter] in H. destruct skip as [|k].
    - destruct (rlong r (c :: s)) as [[|k]|]; [apply IH in H; lia| |apply IH in H; lia]. destruct H as [<-|H]; [cbn; lia|apply IH in H; lia].
    - apply IH in H. lia.
  Qed.
  Lemma find_increasing r : forall s skip off, pairwise (fun m m' : nat * nat => fst m < fst m') (find_iter r skip off s).
  Proof.
    induction s as [|c s IH]; intros skip off; [exact I|]. cbn [find_iter]. destruct skip as [|k]; [|apply IH].
    destruct (rlong r (c :: s)) as [[|k]|]; [apply IH| |apply IH]. split; [|apply IH]. apply Forall_forall. intros m H.
    apply find_from in H. pose proof (utf8_len_pos c). cbn [fst]. lia.
  Qed.

  (** Where the suggestions for one token are. *)
  Definition placed (name : text) (e : elem) (s : suggestion) : Prop :=
    is_node (el_tree e) = false /\ fine3 s /\
    ((name = txt "whitespace-between-line-breaks"%string /\ empty_line t e s) \/
     (name = txt "line-ending"%string /\ el_start e <= sg_start s /\ sg_end s <= el_end e)).
  Lemma own_placed rl flag e r : In rl layout_rules_3 -> In e (elements t) -> is_node (el_tree e) = false ->
    In r (rl_token rl (mkCtx cf flag) e) -> rs_rule r = rl_name rl /\ exists s, rs_suggestions r = [s] /\ placed (rl_name rl) e s.
  Proof.
    intros [<-|[<-|[<-|[]]]] Ie N Hr.
    - destruct Hr.
    - destruct (empty_line_result dbg src t P (mkCtx cf flag) e Ie N) as [E|(r' & s & E & A & B & C & F)]; rewrite E in Hr; [destruct Hr|].
      destruct Hr as [<-|[]]. split; [exact A|]. exists s. split; [exact B|]. split; [exact N|]. split; [now left|]. left. split; [reflexivity|exact F].
    - destruct (line_ending_fine flag e r Ie N Hr) as (A & s & B & C & F). split; [exact A|]. exists s. split; [exact B|]. split; [exact N|].
      split; [now right|]. right. split; [reflexivity|exact F].
  Qed.
  Lemma own_apart rl flag e : In rl layout_rules_3 -> In e (elements t) -> is_node (el_tree e) = false ->
    pairwise apart (rule_suggestions (rl_token rl (mkCtx cf flag) e)).
  Proof.
    intros [<-|[<-|[<-|[]]]] Ie N.
    - exact I.
    - destruct (empty_line_result dbg src t P (mkCtx cf flag) e Ie N) as [->|(r' & s & -> & _ & B & _)]; [exact I|].
      unfold rule_suggestions. cbn [flat_map]. rewrite B. cbn. repeat constructor.
    - assert (F : Forall (fun p => fine3 (snd p)) (rule_suggestions (rl_token rule_line_ending (mkCtx cf flag) e))).
      { apply Forall_forall. intros p Hp. apply in_flat_map in Hp as (r & Hr & Hp). apply in_map_iff in Hp as (s & <- & Hs).
        destruct (line_ending_fine flag e r Ie N Hr) as (_ & s' & B & C & _). rewrite B in Hs. destruct Hs as [<-|[]]. now right. }
      cbn [rl_token rule_line_ending cx_config] in *. destruct (negb _); [exact I|]. rewrite U in *.
      pose proof (find_increasing (invalid_line_ending UnixLF) (el_text e) 0 0) as W. revert F W.
      generalize (find_iter (invalid_line_ending UnixLF) 0 0 (el_text e)) as l. induction l as [|m l IH]; intros F W; [exact I|]. destruct W as [W1 W2].
      unfold rule_suggestions in F |- *. cbn [map flat_map app] in F |- *. inversion F as [|? ? F1 F2]; subst. split; [|apply IH; [exact F2|exact W2]].
      apply Forall_forall. intros b Hb _ O. rewrite Forall_forall in F2. pose proof (fine3_overlap _ _ F1 (F2 b Hb) O) as [E _].
      apply in_flat_map in Hb as (r & Hr & Hb). apply in_map_iff in Hr as (m' & <- & Hm). cbn in Hb. destruct Hb as [<-|[]]. cbn in E.
      rewrite Forall_forall in W1. specialize (W1 m' Hm). lia.
  Qed.
  Lemma names_apart rules : NoDup (map rl_name rules) -> pairwise (fun a b => rl_name a <> rl_name b) rules.
  Proof.
    induction rules as [|r rules IH]; intros N; [exact I|]. cbn [map] in N. inversion N as [|? ? N1 N2]; subst. split; [|auto].
    apply Forall_forall. intros x Hx E. apply N1. rewrite E. now apply in_map.
  Qed.
  Definition own (flag : bool) (e : elem) (rl : rule) : list result :=
    if switched_off (rl_name rl) e then [] else (if is_node (el_tree e) then rl_node rl else rl_token rl) (mkCtx cf flag) e.
  Lemma own_in rl flag e r : In rl layout_rules_3 -> In e (elements t) -> In r (own flag e rl) ->
    rs_rule r = rl_name rl /\ exists s, rs_suggestions r = [s] /\ placed (rl_name rl) e s.
  Proof.
    intros Il Ie Hr. unfold own in Hr. destruct (switched_off _ e); [destruct Hr|]. destruct (is_node (el_tree e)) eqn:N.
    - destruct Il as [<-|[<-|[<-|[]]]]; destruct Hr.
    - eapply own_placed; eauto.
  Qed.
  Lemma checked_apart rules flag e : incl rules layout_rules_3 -> NoDup (map rl_name rules) -> In e (elements t) ->
    pairwise apart (rule_suggestions (checked cf rules flag e)).
  Proof.
    intros Ir N Ie. change (checked cf rules flag e) with (flat_map (own flag e) rules). rewrite suggested_flat. apply pairwise_flat.
    - intros rl Hrl. unfold own. destruct (switched_off _ e); [exact I|]. destruct (is_node (el_tree e)) eqn:Nd; [|now apply own_apart; auto].
      destruct (Ir rl Hrl) as [<-|[<-|[<-|[]]]]; exact I.
    - assert (M : forall l, incl l layout_rules_3 -> pairwise (fun a b => rl_name a <> rl_name b) l ->
        pairwise (fun x y => forall a b, In a (rule_suggestions (own flag e x)) -> In b (rule_suggestions (own flag e y)) -> apart a b) l).
      { induction l as [|x l IH]; intros I1 H; [exact I|]. destruct H as [H1 H2]. split; [|apply IH; [intros z Hz; apply I1; now right|exact H2]].
        apply Forall_forall. intros y Hy a b Ha Hb E. exfalso. rewrite Forall_forall in H1. apply (H1 y Hy).
        apply in_flat_map in Ha as (r & Hr & Ha). apply in_map_iff in Ha as (s & <- & _). apply in_flat_map in Hb as (r' & Hr' & Hb).
        apply in_map_iff in Hb as (s' & <- & _). cbn [fst] in E.
        destruct (own_in x flag e r) as [<- _]; auto; [apply I1; now left|]. destruct (own_in y flag e r') as [<- _]; auto. apply I1. now right. }
      apply M; [exact Ir|now apply names_apart].
  Qed.
  Lemma checked_placed rules flag e p : incl rules layout_rules_3 -> In e (elements t) ->
    In p (rule_suggestions (checked cf rules flag e)) -> placed (fst p) e (snd p).
  Proof.
    intros Ir Ie Hp. apply in_flat_map in Hp as (r & Hr & Hp). apply in_map_iff in Hp as (s & <- & Hs). cbn [fst snd].
    unfold checked in Hr. apply in_flat_map in Hr as (rl & Hrl & Hr). destruct (own_in rl flag e r (Ir rl Hrl) Ie Hr) as (-> & s' & B & C).
    rewrite B in Hs. destruct Hs as [<-|[]]. exact C.
  Qed.
  Lemma tiled_apart : forall l a b, tiled a l b ->
    pairwise (fun x y => is_node (el_tree x) = false -> is_node (el_tree y) = false -> el_end x <= el_start y) l.
  Proof.
    induction l as [|x l IH]; intros a b H; [exact I|]. cbn [tiled] in H. destruct (is_node (el_tree x)) eqn:N.
    - split; [|eapply IH; eauto]. apply Forall_forall. intros y _ X. congruence.
    - destruct H as [_ H]. split; [|eapply IH; eauto]. apply Forall_forall. intros y Hy _ Ny. apply in_split in Hy as (l1 & l2 & ->).
      apply tiled_split in H as [H _]; [|exact Ny]. now apply tiled_le in H.
  Qed.
  Lemma placed_apart name x y a b : In x (elements t) -> In y (elements t) -> el_end x <= el_start y ->
    placed name x a -> placed name y b -> ~ overlap a b.
  Proof.
    intros Ix Iy L (Nx & Fa & A) (Ny & Fb & B) O. destruct (fine3_overlap _ _ Fa Fb O) as [E1 E2]. destruct O as [O1 O2].
    destruct A as [[-> A]|[-> [A1 A2]]], B as [[E B]|[E [B1 B2]]]; try discriminate E; [|lia].
    destruct A as (_ & _ & ws & _ & _ & _ & S1 & S2 & _). destruct B as (_ & Ky & ws' & _ & _ & _ & S1' & S2' & _).
    destruct (C33_line_break_tokens _ _ _ _ _ P Iy Ny Ky) as (bl & Nb & Eb).
    assert (Lb : el_start y < el_end y).
    { rewrite el_end_text, Eb. destruct (breaks_end bl Nb) as (z & ->). rewrite blen_app. cbn. lia. }
    lia.
  Qed.
  Lemma roots_once3 : forall rules roots, incl rules layout_rules_3 -> NoDup (map rl_name rules) ->
    run_roots cf rules (root_elem t) = Done roots ->
    roots = [] \/ (roots = indentation_results t cf /\ In (txt "indentation"%string) (map rl_name rules)).
  Proof.
    induction rules as [|r rules IH]; intros roots Ir N H; cbn [run_roots] in H; [injection H as <-; now left|].
    destruct (rl_root r (mkCtx cf false) (root_elem t)) as [a|] eqn:A; [|discriminate].
    destruct (run_roots cf rules (root_elem t)) as [b|] eqn:B; [|discriminate]. injection H as <-.
    cbn [map] in N. inversion N as [|? ? N1 N2]; subst.
    specialize (IH b (fun x Hx => Ir x (or_intror Hx)) N2 eq_refl).
    destruct (Ir r (or_introl eq_refl)) as [<-|[<-|[<-|[]]]]; cbn [rl_root rule_indentation rule_whitespace_between_line_breaks rule_line_ending no_root] in A.
    - right. destruct IH as [->|[_ IH]]; [|destruct (N1 IH)]. unfold indentation_results. rewrite A, app_nil_r.
      split; [reflexivity|now left].
    - injection A as <-. destruct IH as [->|[-> IH]]; [now left|right]. split; [reflexivity|now right].
    - injection A as <-. destruct IH as [->|[-> IH]]; [now left|right]. split; [reflexivity|now right].
  Qed.
  Lemma run_apart3 rules rs : incl rules layout_rules_3 -> NoDup (map rl_name rules) -> run_rules cf rules t = Done rs ->
    pairwise apart (rule_suggestions rs).
  Proof.
    intros Ir N R. destruct rules as [|r0 rules']; [injection R as <-; exact Logic.I|].
    destruct (C15_ignore_directives_have_exact_scope _ _ _ _ R) as (roots & flag & A & ->); [discriminate|].
    destruct (indentation_results_fine dbg src t cf P D) as (F1 & _ & F3). rewrite suggested_app. apply pairwise_app.
    - apply roots_once3 in A; auto. destruct A as [->|[-> _]]; [exact Logic.I|].
      eapply pairwise_impl; [|apply in_order_pairwise; rewrite suggested_snd; exact F3]. unfold apart. auto.
    - rewrite suggested_flat. apply pairwise_flat.
      + intros e He. apply filter_In in He as [He _]. now apply checked_apart.
      + apply pairwise_filter.
        assert (M : forall l, incl l (elements t) -> pairwise (fun x y => is_node (el_tree x) = false -> is_node (el_tree y) = false -> el_end x <= el_start y) l ->
          pairwise (fun x y => forall a b, In a (rule_suggestions (checked cf (r0 :: rules') (flag x) x)) ->
             In b (rule_suggestions (checked cf (r0 :: rules') (flag y) y)) -> apart a b) l).
        { induction l as [|x l IH]; intros Il H; [exact Logic.I|]. destruct H as [H1 H2]. split; [|apply IH; [intros z Hz; apply Il; now right|exact H2]].
          apply Forall_forall. intros y Hy a b Ha Hb E.
          assert (Ix : In x (elements t)) by (apply Il; now left). assert (Iy : In y (elements t)) by (apply Il; now right).
          apply checked_placed in Ha; auto. apply checked_placed in Hb; auto. rewrite E in Ha. rewrite Forall_forall in H1.
          apply (placed_apart (fst b) x y); auto. apply H1; [exact Hy|apply Ha|apply Hb]. }
        apply M; [apply incl_refl|eapply tiled_apart, elements_tiled].
    - intros a b Ha Hb E. exfalso. apply roots_incl3 in A; [|exact Ir].
      assert (Ea : fst a = txt "indentation"%string).
      { refine (proj1 (Forall_forall (fun p => fst p = _) _) _ a Ha). apply suggested_fst.
        apply Forall_forall. intros r Hr. rewrite Forall_forall in F1. apply F1, A, Hr. }
      rewrite suggested_flat in Hb. apply in_flat_map in Hb as (e & He & Hb). apply filter_In in He as [He _].
      apply checked_placed in Hb as (_ & _ & [[Eb _]|[Eb _]]); auto; rewrite Ea, Eb in E; discriminate E.
  Qed.
  Lemma no_collision3 sort rules rs sorted name : sorts sort -> incl rules layout_rules_3 -> NoDup (map rl_name rules) ->
    run_rules cf rules t = Done rs -> sort (rule_suggestions rs) = Done sorted -> overlapping_rules sorted <> inl name.
  Proof.
    intros C Ir N R S E. destruct (C _ _ S) as [Pm _]. pose proof (run_apart3 _ _ Ir N R) as PW. unfold apart in PW.
    assert (PS : pairwise (fun a b : text * suggestion => fst a = fst b -> ~ overlap (snd a) (snd b)) sorted).
    { clear -Pm PW. induction Pm as [|x l l' Pm IH|x y l|l l' l'' Pm1 IH1 Pm2 IH2]; auto.
      - destruct PW as [A B]. split; [|auto]. apply Forall_forall. intros y Hy. rewrite Forall_forall in A. apply A.
        apply (Permutation_in _ (Permutation_sym Pm)). exact Hy.
      - destruct PW as [A [B C]]. inversion A as [|? ? A1 A2]; subst. split; [|split; auto].
        constructor; [|exact B]. intros E O. apply (A1 (eq_sym E)). apply overlap_sym, O. }
    destruct (overlapping_rules_sound _ _ E) as (m1 & a & b & m2 & -> & O).
    clear -PS O. induction m1 as [|x m1 IH]; cbn [app pairwise] in PS.
    - destruct PS as [PS _]. exact (Forall_inv PS eq_refl O).
    - apply IH, PS.
  Qed.
End Suggested3.

Lemma same_layout_parsed dbg src t new : parse_file dbg src = Done (t, []) -> same_lines (unix src) (unix new) -> steady src -> steady new ->
  exists t', parse_file dbg new = Done (t', []) /\ bare t = bare t'.
Proof.
  intros P S S1 S2. assert (L : same_layout src new) by (unfold same_layout, layout, same_lines in *; now rewrite S).
  pose proof (C67_layout_is_irrelevant_partial dbg src new L S1 S2) as H. unfold parse_file in *.
  destruct (parse_src dbg src) as [[t0 e0]| |]; try discriminate. injection P as -> ->.
  destruct (parse_src dbg new) as [[t' e']| |]; try destruct H. inversion H0; subst. eauto.
Qed.

Section Fixing3.
  Context (dbg : bool) (sort : list (text * suggestion) -> out (list (text * suggestion))) (cf : config).
  Hypothesis (C : sorts sort) (U : cf_line_ending cf = UnixLF).

  (** What is left after any number of rounds. *)
  Lemma layout_loop3 rules : incl rules layout_rules_3 -> forall n i src t rs dirty, steady src ->
    parse_file dbg src = Done (t, []) -> directives_name_rules t -> run_rules cf rules t = Done rs ->
    match fix_loop dbg sort cf n i (mkFile src t [] rules) rs dirty with
    | Ok (fc, _, _, _) => same_lines (unix src) (unix (fc_source fc)) /\ steady (fc_source fc) /\ parse_file dbg (fc_source fc) = Done (fc_tree fc, [])
    | Err MaxApplyIteration => True
    | Err _ => ~ NoDup (map rl_name rules)
    | Crash => exists l, sort l = Crashed
    end.
  Proof.
    intros Ir. induction n as [|n IH]; intros i src t rs dirty St P D R; [exact Logic.I|]. cbn [fix_loop].
    destruct (rule_suggestions rs) as [|x l] eqn:E; [split; [reflexivity|split; [exact St|exact P]]|]. rewrite <- E.
    destruct (sort (rule_suggestions rs)) as [sorted|] eqn:HS; [|eauto].
    destruct (select_suggestions sorted) as [e|chosen] eqn:Sel.
    - unfold select_suggestions in Sel. destruct (overlapping_rules sorted) as [name|] eqn:O; [|discriminate].
      injection Sel as <-. intros N. exact (no_collision3 dbg src t cf P D U _ _ _ _ _ C Ir N R HS O).
    - cbn [fc_source fc_rules]. destruct (round3 dbg src t cf P D U _ _ _ _ _ C Ir St R HS Sel) as (new & -> & SL & St').
      destruct (same_layout_parsed _ _ _ _ P SL St St') as (t' & P' & B). rewrite P'.
      assert (R' : exists rs', run_rules cf rules t' = Done rs').
      { eapply C14_rules_never_crash; [exact P'|]. intros r Hr. destruct (Ir r Hr) as [<-|[<-|[<-|[]]]]; cbn [In RULE_DEFINITIONS]; tauto. }
      destruct R' as (rs' & R'). rewrite R'.
      specialize (IH (S i) new t' rs' true St' P' (bare_directives _ _ B D) R').
      destruct (fix_loop dbg sort cf n (S i) (mkFile new t' [] rules) rs' true) as [[[[fc ?] ?] ?]|e|]; [|exact IH|exact IH].
      destruct IH as [IH1 IH2]. split; [|exact IH2]. unfold same_lines in *. congruence.
  Qed.
End Fixing3.

(** Fixing indentation, white space on empty lines and line endings (to the Unix style) changes
    nothing but blanks and tabs at the start of lines and carriage returns at their end, and what
    is written parses without errors to the same tree up to white space.  Left out: lines with a
    Windows ending after a further carriage return, [not in] or [is not]. *)
Theorem C68_line_ending_fixes_keep_the_template_partial : forall dbg sort cf inspect write_ok rules src t effects o,
  sorts sort -> cf_line_ending cf = UnixLF -> incl rules layout_rules_3 -> steady src ->
  parse_file dbg src = Done (t, []) -> directives_name_rules t ->
  run_analysis dbg sort cf true inspect write_ok rules src = (effects, o) ->
  forall new, In (WriteFile new) effects ->
  same_lines (unix src) (unix new) /\ exists t', parse_file dbg new = Done (t', []) /\ bare t = bare t'.
Proof.
  intros dbg sort cf inspect write_ok rules src t effects o C U Ir St P D A new W.
  assert (NW : forall b fc rs, ~ In (WriteFile new) (produce_diagnostics b fc rs ++ [Send OutputStderrMessage])).
  { intros b fc rs H. unfold produce_diagnostics in H. rewrite !in_app_iff, !in_map_iff in H.
    destruct H as [[H|[(x & H & _)|(x & H & _)]]|[H|[]]]; try discriminate H. destruct b; [destruct H as [H|[]]; discriminate H|destruct H]. }
  unfold run_analysis in A. rewrite P in A.
  set (active := get_file_active_rules (root_elem t) rules) in *.
  assert (IA : incl active layout_rules_3).
  { unfold active, get_file_active_rules. destruct (disabled_rules _ _); [|intros x []]. intros x Hx. apply filter_In in Hx. apply Ir, Hx. }
  destruct (run_rules cf active t) as [rs|] eqn:R; [|injection A as <- _; destruct W].
  pose proof (layout_loop3 dbg sort cf C U active IA 10 0 src t rs false St P D R) as L. unfold iteratively_apply_suggestions in A.
  destruct (fix_loop dbg sort cf 10 0 (mkFile src t [] active) rs false) as [[[[fc rs'] dirty] j]|e|];
    [|injection A as <- _; destruct W|injection A as <- _; destruct W].
  assert (G : same_lines (unix src) (unix (fc_source fc)) /\ exists t', parse_file dbg (fc_source fc) = Done (t', []) /\ bare t = bare t').
  { destruct L as [L1 [L2 L3]]. split; [exact L1|]. exact (same_layout_parsed _ _ _ _ P L1 St L2). }
  destruct dirty; [destruct write_ok|]; injection A as <- _.
  - destruct W as [[= <-]|W]; [exact G|]. destruct (NW _ _ _ W).
  - destruct W as [[= <-]|[]]. exact G.
  - destruct (NW _ _ _ W).
Qed.

(** And these fixes never fail with a collision or a crash, either. *)
Theorem C68_line_ending_fixes_never_collide_partial : forall dbg sort cf inspect write_ok rules src t effects o,
  sorts sort -> (forall l, sort l <> Crashed) -> cf_line_ending cf = UnixLF -> incl rules layout_rules_3 -> NoDup (map rl_name rules) ->
  steady src -> parse_file dbg src = Done (t, []) -> directives_name_rules t ->
  run_analysis dbg sort cf true inspect write_ok rules src = (effects, o) ->
  o = Ok tt \/ o = Err MaxApplyIteration \/ (o = Err FileWrite /\ write_ok = false).
Proof.
  intros dbg sort cf inspect write_ok rules src t effects o C NC U Ir N St P D A.
  unfold run_analysis in A. rewrite P in A.
  set (active := get_file_active_rules (root_elem t) rules) in *.
  assert (IA : incl active layout_rules_3 /\ NoDup (map rl_name active)).
  { unfold active, get_file_active_rules. destruct (disabled_rules _ _) as [dis|]; [|split; [intros x []|constructor]]. split.
    - intros x Hx. apply filter_In in Hx. apply Ir, Hx.
    - clear -N. induction rules as [|r rules IH]; [constructor|]. cbn [map filter] in *. inversion N as [|? ? N1 N2]; subst.
      destruct (negb _); [|auto]. cbn [map]. constructor; [|auto]. intros H. apply N1. apply in_map_iff in H as (x & <- & H).
      apply filter_In in H as [H _]. apply in_map. exact H. }
  destruct IA as [IA NA].
  destruct (C14_rules_never_crash cf _ _ _ _ active P) as (rs & R).
  { intros r Hr. destruct (IA r Hr) as [<-|[<-|[<-|[]]]]; cbn [In RULE_DEFINITIONS]; tauto. }
  rewrite R in A.
  pose proof (layout_loop3 dbg sort cf C U active IA 10 0 src t rs false St P D R) as L. unfold iteratively_apply_suggestions in A.
  destruct (fix_loop dbg sort cf 10 0 (mkFile src t [] active) rs false) as [[[[fc rs'] dirty] j]|e|].
  - destruct dirty; [destruct write_ok|]; injection A as _ <-; auto.
  - injection A as _ <-. destruct e; [| |auto|]; contradiction.
  - destruct L as (l & L). destruct (NC l L).
Qed.

(** A template with both kinds of line endings, wrong indentation and an empty line with white space. *)
Definition mixed : text := Eval vm_compute in
  txt "<div>"%string ++ [13; 10]%N ++ txt "<p a=""1"""%string ++ [10; 9]%N ++ txt "b>  x</p>"%string ++ [13; 10; 9; 32; 13; 10; 13; 10]%N
  ++ txt "{% if a is not defined %}"%string ++ [13; 10]%N ++ txt "{# ludtwig-ignore twig-valid-function #}"%string ++ [10]%N
  ++ txt "      {{ f(1) }} y"%string ++ [13; 10]%N ++ txt "{% endif %}"%string ++ [10]%N ++ txt "  </div>"%string.
Definition unmixed : text := Eval vm_compute in
  txt "<div>"%string ++ [10]%N ++ txt "    <p a=""1"""%string ++ [10]%N ++ txt "       b>  x</p>"%string ++ [10; 10; 10]%N
  ++ txt "    {% if a is not defined %}"%string ++ [10]%N ++ txt "        {# ludtwig-ignore twig-valid-function #}"%string ++ [10]%N
  ++ txt "        {{ f(1) }} y"%string ++ [10]%N ++ txt "    {% endif %}"%string ++ [10]%N ++ txt "</div>"%string.
Example C68_case_line_endings : exists t rest,
  sorts insertion_sort /\ cf_line_ending default_config = UnixLF /\ NoDup (map rl_name layout_rules_3) /\ steady mixed /\
  parse_file true mixed = Done (t, []) /\ directives_name_rules t /\
  run_analysis true insertion_sort default_config true false true layout_rules_3 mixed = (WriteFile unmixed :: rest, Ok tt).
Proof.
  assert (E : match parse_file true mixed with Done (t, []) => named_directives t | _ => false end
    && match run_analysis true insertion_sort default_config true false true layout_rules_3 mixed with
       | (WriteFile s :: _, Ok tt) => text_eqb s unmixed | _ => false end = true) by (vm_compute; reflexivity).
  apply andb_true_iff in E as [E1 E2].
  destruct (parse_file true mixed) as [[t [|? ?]]|] eqn:P; try discriminate E1.
  destruct (run_analysis true insertion_sort default_config true false true layout_rules_3 mixed) as [[|[ev| |s] rest] o];
    try discriminate E2. destruct o as [[]| |]; try discriminate E2. apply text_eqb_eq in E2. subst s. exists t, rest.
  split; [exact insertion_sort_sorts|]. split; [reflexivity|].
  split; [repeat (constructor; [intros H; cbn [map In] in H; repeat (destruct H as [H|H]; [discriminate H|]); destruct H|]); constructor|].
  split; [apply steadyb_sound; vm_compute; reflexivity|]. split; [reflexivity|]. split; [now apply named_directives_sound|reflexivity].
Qed.

Definition other_tree (x y : out (tree * list perror)) : bool :=
  match x, y with
  | Done (t, []), Done (t', []) => named_directives t && negb (Nat.eqb (list_sum (map tree_size (bare t))) (list_sum (map tree_size (bare t'))))
  | _, _ => false
  end.
Lemma other_tree_sound x y : other_tree x y = true ->
  exists t t', x = Done (t, []) /\ y = Done (t', []) /\ directives_name_rules t /\ bare t <> bare t'.
Proof.
  intros E. destruct x as [[t [|? ?]]|]; try discriminate E. destruct y as [[t' [|? ?]]|]; try discriminate E.
  cbn [other_tree] in E. apply andb_true_iff in E as [E1 E3]. exists t, t'. split; [reflexivity|]. split; [reflexivity|].
  split; [now apply named_directives_sound|]. intros X. rewrite X, Nat.eqb_refl in E3. discriminate E3.
Qed.
Definition writes (new : text) (x : list effect * outcome unit) : bool :=
  match x with (WriteFile s :: _, Ok tt) => text_eqb s new | _ => false end.
Lemma writes_sound new x : writes new x = true -> exists rest, x = (WriteFile new :: rest, Ok tt).
Proof.
  destruct x as [[|[ev| |s] rest] o]; try discriminate. destruct o as [[]| |]; try discriminate. cbn [writes]. intros E.
  apply text_eqb_eq in E. subst s. eauto.
Qed.

(** In full it is refuted: fixing the line ending after [is not] changes the expression. *)
Theorem C68_line_ending_fixes_keep_the_template_refuted :
  exists src new t t' rest, sorts insertion_sort /\ parse_file true src = Done (t, []) /\ directives_name_rules t /\
    run_analysis true insertion_sort default_config true false true [rule_line_ending] src = (WriteFile new :: rest, Ok tt) /\
    parse_file true new = Done (t', []) /\ bare t <> bare t'.
Proof.
  assert (E1 : other_tree (parse_file true two_words) (parse_file true (unix two_words)) = true) by (vm_compute; reflexivity).
  assert (E2 : writes (unix two_words) (run_analysis true insertion_sort default_config true false true [rule_line_ending] two_words) = true) by (vm_compute; reflexivity).
  destruct (other_tree_sound _ _ E1) as (t & t' & P & P' & D & B). destruct (writes_sound _ _ E2) as (rest & W).
  exists two_words, (unix two_words), t, t', rest. split; [exact insertion_sort_sorts|]. split; [exact P|]. split; [exact D|].
  split; [exact W|]. split; [exact P'|exact B].
Qed.

Print Assumptions C67_layout_is_irrelevant_partial.
Print Assumptions C67_layout_is_irrelevant_refuted.
Print Assumptions C68_line_ending_fixes_keep_the_template_partial.
Print Assumptions C68_line_ending_fixes_never_collide_partial.
Print Assumptions C68_line_ending_fixes_keep_the_template_refuted.
