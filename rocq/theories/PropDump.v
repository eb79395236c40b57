(** * C84: the printed syntax tree says everything

    Property theorems about [debug_tree] and [debug_parse] (Dump.v). *)
From Coq Require Import NArith Arith String Ascii Bool Lia List DecimalString DecimalNat HexadecimalString HexadecimalN.
Import ListNotations.
From Verif Require Import Text Kind Lexer LexerProofs ParserApi GrammarTags Machine TreeSpec Red RedFacts Render Dump.
From Verif Require PropProcess AccRules PropParser.
Local Notation length := List.length (only parsing).
Local Open Scope list_scope.

(** * Texts *)
Lemma txt_inj : forall a b, txt a = txt b -> a = b.
Proof.
  induction a as [|x a IH]; intros [|y b] H; try discriminate; [reflexivity|]. cbn [txt] in H. injection H as H1 H2. f_equal; [|now apply IH].
  rewrite <- (ascii_N_embedding x), <- (ascii_N_embedding y). now rewrite H1.
Qed.
(** Two texts up to the first character of another sort. *)
Lemma split_first (P : N -> Prop) : forall a b c d x y, Forall P a -> Forall P b -> ~ P c -> ~ P d -> a ++ c :: x = b ++ d :: y -> a = b /\ c = d /\ x = y.
Proof.
  induction a as [|u a IH]; intros [|v b] c d x y Fa Fb Hc Hd E; cbn [app] in E; injection E as E1 E2.
  - auto.
  - inversion Fb; subst. contradiction.
  - inversion Fa; subst. contradiction.
  - inversion Fa; inversion Fb; subst. destruct (IH b c d x y) as (-> & -> & ->); auto.
Qed.
Definition digit (c : N) : Prop := (48 <= c <= 57)%N.
Lemma nat_text_digits n : Forall digit (nat_text n).
Proof.
  unfold nat_text. generalize (Nat.to_uint n) as d. assert (H : forall d, Forall digit (txt (DecimalString.NilEmpty.string_of_uint d))).
  { assert (C : forall c w, (N.leb 48 (N_of_ascii c) && N.leb (N_of_ascii c) 57)%bool = true -> Forall digit (txt w) -> Forall digit (txt (String c w))).
    { intros c w H F. cbn [txt]. constructor; [|exact F]. apply andb_prop in H as [H1 H2]. split; now apply N.leb_le. }
    induction d; cbn [DecimalString.NilEmpty.string_of_uint]; [apply Forall_nil|..]; (apply C; [reflexivity|assumption]). }
  intros d. unfold DecimalString.NilZero.string_of_uint. destruct d; try apply H. constructor; [split; now apply N.leb_le|constructor].
Qed.
Lemma nat_text_inj a b : nat_text a = nat_text b -> a = b.
Proof.
  unfold nat_text. intros H. apply txt_inj in H. apply (f_equal DecimalString.NilZero.uint_of_string) in H.
  assert (N : forall n, Nat.to_uint n <> Decimal.Nil) by (intros n Z; pose proof (DecimalNat.Unsigned.of_to n) as Y; rewrite Z in Y; change (0 = n) in Y; subst n; discriminate Z).
  rewrite !DecimalString.NilZero.usu in H by apply N. injection H as H. apply (f_equal Nat.of_uint) in H. now rewrite !DecimalNat.Unsigned.of_to in H.
Qed.
Definition name_char (c : N) : Prop := c <> 64%N /\ c <> 32%N.
Lemma kind_debug_chars k : exists c w, txt (kind_debug k) = c :: w /\ Forall name_char (c :: w).
Proof.
  assert (A : forallb (fun k => match txt (kind_debug k) with [] => false | c :: w => forallb (fun c => negb (c =? 64) && negb (c =? 32))%N (c :: w) end) all_kinds = true) by (vm_compute; reflexivity).
  rewrite forallb_forall in A. specialize (A k (AccRules.all_in k)). destruct (txt (kind_debug k)) as [|c w]; [discriminate|]. exists c, w. split; [reflexivity|].
  apply Forall_forall. intros x I. rewrite forallb_forall in A. specialize (A x I). apply andb_prop in A as [A1 A2]. split; intros ->; [discriminate A1|discriminate A2].
Qed.
Lemma kind_debug_inj a b : kind_debug a = kind_debug b -> a = b.
Proof.
  assert (A : forallb (fun k => match find (fun k' => String.eqb (kind_debug k') (kind_debug k)) all_kinds with Some k' => kind_eqb k' k | None => false end) all_kinds = true) by (vm_compute; reflexivity).
  rewrite forallb_forall in A. intros H. pose proof (A a (AccRules.all_in a)) as A1. pose proof (A b (AccRules.all_in b)) as A2. rewrite H in A1.
  destruct (find _ all_kinds) as [k|]; [|discriminate]. apply kind_eqb_eq in A1, A2. congruence.
Qed.
Lemma utf8_pos c : 1 <= utf8_len c <= 4.
Proof. unfold utf8_len. repeat match goal with |- context [if ?b then _ else _] => destruct b end; lia. Qed.
Lemma same_length_prefix : forall a b x y, blen a = blen b -> a ++ x = b ++ y -> a = b /\ x = y.
Proof.
  induction a as [|c a IH]; intros [|d b] x y L E; cbn [blen] in L; pose proof utf8_pos as U.
  - auto.
  - specialize (U d). lia.
  - specialize (U c). lia.
  - cbn [app] in E. injection E as -> E. destruct (IH b x y) as [-> ->]; auto. lia.
Qed.

Section Escape.
  Context (printable : N -> bool).
  (** * Printing never fails *)
  (** Among four successive offsets in a text one is a char boundary. *)
  Lemma boundary : forall s i, i + 3 < blen s -> exists j a b, i <= j <= i + 3 /\ bsplit j s = Some (a, b).
  Proof.
    induction s as [|c s IH]; intros i L; cbn [blen] in L; [lia|]. pose proof (utf8_pos c) as U. destruct i as [|i].
    - exists 0, [], (c :: s). split; [lia|reflexivity].
    - destruct (le_lt_dec (utf8_len c) (S i)) as [Le|Gt].
      + destruct (IH (S i - utf8_len c)) as (j & a & b & J & E); [lia|]. exists (j + utf8_len c), (c :: a), b. split; [lia|].
        destruct (j + utf8_len c) as [|m] eqn:Em; [lia|]. cbn [bsplit]. destruct (Nat.leb_spec (utf8_len c) (S m)); [|lia]. replace (S m - utf8_len c) with j by lia. now rewrite E.
      + exists (utf8_len c), [c], s. split; [lia|]. destruct (utf8_len c) as [|m] eqn:Em; [lia|]. cbn [bsplit]. rewrite Em. rewrite Nat.leb_refl, Nat.sub_diag. now destruct s.
  Qed.
  Lemma token_shown_some s : exists x, token_shown printable s = Some x.
  Proof.
    unfold token_shown. destruct (Nat.ltb_spec (blen s) 25) as [Lt|Ge]; [eauto|]. destruct (boundary s 21) as (j & a & b & J & E); [lia|].
    assert (C : exists a, cut_at [21; 22; 23; 24] s = Some a).
    { cbn [cut_at]. destruct (bsplit 21 s) as [[? ?]|] eqn:E1; [eauto|]. destruct (bsplit 22 s) as [[? ?]|] eqn:E2; [eauto|]. destruct (bsplit 23 s) as [[? ?]|] eqn:E3; [eauto|]. destruct (bsplit 24 s) as [[? ?]|] eqn:E4; [eauto|]. exfalso.
      assert (j = 21 \/ j = 22 \/ j = 23 \/ j = 24) as [-> | [-> | [-> | ->]]] by lia; congruence. }
    destruct C as [w ->]. cbn [option_map]. eauto.
  Qed.
  Definition shown (s : text) : text := match token_shown printable s with Some x => x | None => [] end.
  Fixpoint lines (depth offset : nat) (t : tree) : text :=
    match t with
    | Leaf k s => token_line depth k offset (offset + blen s) (shown s)
    | Node k cs => node_line depth k offset (offset + tree_len t) ++
      (fix go (offset : nat) (l : list tree) : text := match l with [] => [] | c :: r => lines (S depth) offset c ++ go (offset + tree_len c) r end) offset cs
    end.
  Fixpoint forest (depth offset : nat) (l : list tree) : text := match l with [] => [] | c :: r => lines depth offset c ++ forest depth (offset + tree_len c) r end.
  Lemma lines_node d o k cs : lines d o (Node k cs) = node_line d k o (o + tree_len (Node k cs)) ++ forest (S d) o cs.
  Proof. cbn [lines]. f_equal. generalize o as o'. induction cs as [|c cs IH]; intros o'; [reflexivity|]. cbn [forest]. f_equal. apply IH. Qed.
  Lemma tree_debug_lines : forall t d o, tree_debug printable d o t = Some (lines d o t).
  Proof.
    induction t as [k s|k cs IH] using tree_induction; intros d o.
    - cbn [tree_debug lines]. unfold shown. destruct (token_shown_some s) as [x ->]. reflexivity.
    - rewrite lines_node. cbn [tree_debug]. match goal with |- option_map _ ?g = _ => assert (G : g = Some (forest (S d) o cs)) end.
      { clear - IH. revert o. induction IH as [|c cs Hc _ IHs]; intros o; [reflexivity|]. cbn [forest]. rewrite Hc, IHs. reflexivity. }
      rewrite G. reflexivity.
  Qed.

  (** * The tree can be read off *)
  (** What stands behind the lines of a level. *)
  Definition short (d : nat) (r : text) : Prop := r = [] \/ exists j c r', r = repeat 32%N j ++ c :: r' /\ c <> 32%N /\ j < 2 * d.
  Lemma short_not d r x : 1 <= d -> short d r -> r <> repeat 32%N (2 * d) ++ x.
  Proof.
    intros L [-> | (j & c & r' & -> & Hc & Hj)] E.
    - destruct d; [lia|]. cbn in E. discriminate.
    - replace (2 * d) with (j + S (2 * d - j - 1)) in E by lia. rewrite repeat_app, <- app_assoc in E. apply app_inv_head in E. cbn [repeat app] in E. injection E as E _. contradiction.
  Qed.
  Lemma short_up d r : short d r -> short (S d) r.
  Proof. intros [H|(j & c & r' & E & Hc & Hj)]; [now left|]. right. exists j, c, r'. repeat split; auto. lia. Qed.
  Lemma line_short d k x : short (S d) (repeat 32%N (2 * d) ++ txt (kind_debug k) ++ x).
  Proof.
    destruct (kind_debug_chars k) as (c & w & -> & F). right. exists (2 * d), c, (w ++ x). split; [reflexivity|]. split; [|lia]. inversion F as [|? ? [_ H] _]; subst. exact H.
  Qed.
  Lemma forest_short d o ts r : short d r -> short (S d) (forest d o ts ++ r).
  Proof.
    intros H. destruct ts as [|[k s|k cs] ts]; [now apply short_up| |]; cbn [forest].
    - cbn [lines]. unfold token_line. rewrite <- !app_assoc. apply line_short.
    - rewrite lines_node. unfold node_line. rewrite <- !app_assoc. apply line_short.
  Qed.
  (** The part of a line that lines of nodes and tokens have in common. *)
  Lemma line_inj d k k' o e e' c c' x y : ~ digit c -> ~ digit c' ->
    repeat 32%N (2 * d) ++ txt (kind_debug k) ++ txt "@" ++ range_debug o e ++ c :: x = repeat 32%N (2 * d) ++ txt (kind_debug k') ++ txt "@" ++ range_debug o e' ++ c' :: y ->
    k = k' /\ e = e' /\ c = c' /\ x = y.
  Proof.
    intros Hc Hc' E. apply app_inv_head in E. destruct (kind_debug_chars k) as (u & w & Ek & F). destruct (kind_debug_chars k') as (u' & w' & Ek' & F').
    change (txt "@") with [64%N] in E. cbn [app] in E. apply (split_first name_char) in E; [|now rewrite Ek|now rewrite Ek'|intros [Z _]; now apply Z|intros [Z _]; now apply Z].
    destruct E as (Kn & _ & E). apply txt_inj, kind_debug_inj in Kn. split; [exact Kn|]. unfold range_debug in E. rewrite <- !app_assoc in E. apply app_inv_head in E. apply app_inv_head in E.
    apply (split_first digit) in E; [|apply nat_text_digits|apply nat_text_digits|exact Hc|exact Hc']. destruct E as (En & -> & ->). split; [|auto]. now apply nat_text_inj.
  Qed.
  Lemma not_digit_space : ~ digit 32. Proof. unfold digit. lia. Qed.
  Lemma not_digit_nl : ~ digit 10. Proof. unfold digit. lia. Qed.
  Fixpoint size (t : tree) : nat := match t with Leaf _ _ => 1 | Node _ cs => S (fold_right (fun c n => size c + n) 0 cs) end.
  Definition sizes (l : list tree) : nat := fold_right (fun c n => size c + n) 0 l.
  Lemma size_pos t : 1 <= size t. Proof. destruct t; cbn; lia. Qed.
  (** ** The text of a short token can be read off *)
  Inductive esc : N -> text -> Prop :=
  | esc_plain c : c <> 92%N -> c <> 34%N -> esc c [c]
  | esc_short c e : In (c, e) [(0, 48); (9, 116); (13, 114); (10, 110); (34, 34); (92, 92)]%N -> esc c [92; e]%N
  | esc_code c : esc c (txt "\u{" ++ txt (HexadecimalString.NilZero.string_of_uint (N.to_hex_uint c)) ++ txt "}").
  Lemma escape_esc c : esc c (escape printable c).
  Proof.
    unfold escape. repeat match goal with |- context [if (c =? ?n)%N then _ else _] => destruct (N.eqb_spec c n) as [->|?] end; try (apply esc_short; cbn [In]; tauto).
    destruct (printable c); [now apply esc_plain|apply esc_code].
  Qed.
  Definition hexa (c : N) : Prop := c <> 125%N.
  Lemma hex_chars n : Forall hexa (txt (HexadecimalString.NilZero.string_of_uint n)).
  Proof.
    assert (C : forall c w, (N_of_ascii c =? 125)%N = false -> Forall hexa (txt w) -> Forall hexa (txt (String c w))).
    { intros c w H F. cbn [txt]. constructor; [|exact F]. now apply N.eqb_neq. }
    assert (H : forall d, Forall hexa (txt (HexadecimalString.NilEmpty.string_of_uint d))) by (induction d; cbn [HexadecimalString.NilEmpty.string_of_uint]; [apply Forall_nil|..]; (apply C; [reflexivity|assumption])).
    unfold HexadecimalString.NilZero.string_of_uint. destruct n; try apply H. constructor; [now apply N.eqb_neq|constructor].
  Qed.
  Lemma hex_inj a b : HexadecimalString.NilZero.string_of_uint (N.to_hex_uint a) = HexadecimalString.NilZero.string_of_uint (N.to_hex_uint b) -> a = b.
  Proof.
    intros H. apply (f_equal HexadecimalString.NilZero.uint_of_string) in H.
    assert (Z : forall n, N.to_hex_uint n <> Hexadecimal.Nil) by (intros n Z; pose proof (HexadecimalN.Unsigned.of_to n) as Y; rewrite Z in Y; change (0%N = n) in Y; subst n; discriminate Z).
    rewrite !HexadecimalString.NilZero.usu in H by apply Z. injection H as H. apply (f_equal N.of_hex_uint) in H. now rewrite !HexadecimalN.Unsigned.of_to in H.
  Qed.
  Lemma esc_inj c d u v x y : esc c u -> esc d v -> u ++ x = v ++ y -> c = d /\ x = y.
  Proof.
    intros H K E. destruct H as [c H1 H2|c e I|c], K as [d K1 K2|d e' I'|d]; cbn [app] in E.
    - now injection E as -> ->.
    - injection E as -> _. contradiction.
    - change (txt "\u{") with [92; 117; 123]%N in E. cbn [app] in E. injection E as -> _. contradiction.
    - injection E as <- _. contradiction.
    - injection E as -> ->. split; [|reflexivity]. cbn [In] in I, I'. repeat match goal with H : _ \/ _ |- _ => destruct H as [H|H] | H : False |- _ => destruct H | H : (_, _) = (_, _) |- _ => injection H as <- H end; try reflexivity; try discriminate; subst; try discriminate; reflexivity.
    - exfalso. change (txt "\u{") with [92; 117; 123]%N in E. cbn [app] in E. injection E as -> _. cbn [In] in I. repeat match goal with H : _ \/ _ |- _ => destruct H as [H|H] | H : False |- _ => destruct H | H : (_, _) = (_, _) |- _ => discriminate H end.
    - change (txt "\u{") with [92; 117; 123]%N in E. cbn [app] in E. injection E as <- _. contradiction.
    - exfalso. change (txt "\u{") with [92; 117; 123]%N in E. cbn [app] in E. injection E as <- _. cbn [In] in I'. repeat match goal with H : _ \/ _ |- _ => destruct H as [H|H] | H : False |- _ => destruct H | H : (_, _) = (_, _) |- _ => discriminate H end.
    - rewrite <- !app_assoc in E. apply app_inv_head in E. change (txt "}") with [125%N] in E. cbn [app] in E. apply (split_first hexa) in E; [|apply hex_chars|apply hex_chars|intros Z; now apply Z|intros Z; now apply Z].
      destruct E as (E & _ & ->). split; [|reflexivity]. apply txt_inj in E. now apply hex_inj.
  Qed.
  Lemma esc_first c u : esc c u -> exists h w, u = h :: w /\ h <> 34%N.
  Proof. intros [d H1 H2|d e _|d]; [exists d, []; auto|exists 92%N, [e]; split; [reflexivity|discriminate]|]. change (txt "\u{") with [92; 117; 123]%N. cbn [app]. eexists 92%N, _. split; [reflexivity|discriminate]. Qed.
  Lemma escapes_inj : forall s s' x y, flat_map (escape printable) s ++ 34%N :: x = flat_map (escape printable) s' ++ 34%N :: y -> s = s' /\ x = y.
  Proof.
    induction s as [|c s IH]; intros [|d s'] x y E; cbn [flat_map app] in E.
    - now injection E as ->.
    - exfalso. destruct (esc_first d _ (escape_esc d)) as (h & w & H & K). rewrite H in E. cbn [app] in E. injection E as <- _. now apply K.
    - exfalso. destruct (esc_first c _ (escape_esc c)) as (h & w & H & K). rewrite H in E. cbn [app] in E. injection E as -> _. now apply K.
    - rewrite <- !app_assoc in E. destruct (esc_inj c d _ _ _ _ (escape_esc c) (escape_esc d) E) as [-> E']. destruct (IH s' x y E') as [-> ->]. auto.
  Qed.
  Lemma shown_inj s s' x y : blen s < 25 -> blen s' < 25 -> shown s ++ x = shown s' ++ y -> s = s' /\ x = y.
  Proof.
    intros L L' E. unfold shown, token_shown in E. destruct (Nat.ltb_spec (blen s) 25); [|lia]. destruct (Nat.ltb_spec (blen s') 25); [|lia]. unfold text_debug in E. cbn [app] in E. injection E as E. rewrite <- !app_assoc in E. exact (escapes_inj _ _ _ _ E).
  Qed.
  Definition brief (t : tree) : Prop := forall k s, In (k, s) (leaves t) -> blen s < 25.
  Lemma brief_node k cs : brief (Node k cs) -> Forall brief cs.
  Proof. intros H. apply Forall_forall. intros c I k' s J. apply (H k' s). cbn [leaves]. apply in_flat_map. eauto. Qed.
  (** What is known besides the printed lines: the text, or that no token is cut off. *)
  Definition known (l1 l2 : list tree) : Prop := (exists x1 x2, trees_text l1 ++ x1 = trees_text l2 ++ x2) \/ (Forall brief l1 /\ Forall brief l2).
  Lemma known_leaf k k' s s' l l' x y : known (Leaf k s :: l) (Leaf k' s' :: l') -> blen s = blen s' -> shown s ++ x = shown s' ++ y -> s = s' /\ x = y /\ known l l'.
  Proof.
    intros [(x1 & x2 & X)|[B B']] L E.
    - unfold trees_text in X. cbn [flat_map] in X. fold (trees_text l) (trees_text l') in X. rewrite <- !app_assoc, !tree_text_leaf in X. destruct (same_length_prefix _ _ _ _ L X) as [-> X'].
      split; [reflexivity|]. apply app_inv_head in E. split; [exact E|]. left. eauto.
    - inversion B as [|? ? B1 B2]; inversion B' as [|? ? B1' B2']; subst. destruct (shown_inj s s' x y) as [-> ->]; [apply (B1 k); now left|apply (B1' k'); now left|exact E|]. split; [reflexivity|]. split; [reflexivity|]. right. auto.
  Qed.
  Lemma known_node k k' cs cs' l l' : known (Node k cs :: l) (Node k' cs' :: l') -> known cs cs' /\ (cs = cs' -> known l l').
  Proof.
    intros [(x1 & x2 & X)|[B B']].
    - unfold trees_text in X. cbn [flat_map] in X. fold (trees_text l) (trees_text l') in X. rewrite <- !app_assoc, !tree_text_node in X. split; [left; eauto|]. intros ->. apply app_inv_head in X. left. eauto.
    - inversion B as [|? ? B1 B2]; inversion B' as [|? ? B1' B2']; subst. split; [right; split; eapply brief_node; eassumption|]. intros _. right. auto.
  Qed.
  Lemma forest_inj : forall n ts1, sizes ts1 <= n -> forall ts2 d o r1 r2, 1 <= d -> short d r1 -> short d r2 ->
    forest d o ts1 ++ r1 = forest d o ts2 ++ r2 -> known ts1 ts2 -> ts1 = ts2 /\ r1 = r2.
  Proof.
    induction n as [n IH] using (well_founded_induction lt_wf). intros ts1 Sz ts2 d o r1 r2 Ld S1 S2 E X.
    assert (Start : forall t o, exists y, lines d o t = repeat 32%N (2 * d) ++ y).
    { intros [k s|k cs] o'; [cbn [lines]; unfold token_line; eauto|]. rewrite lines_node. unfold node_line. rewrite <- app_assoc. eauto. }
    destruct ts1 as [|t1 ts1], ts2 as [|t2 ts2].
    - auto.
    - exfalso. cbn [forest app] in E. destruct (Start t2 o) as [y Y]. rewrite Y, <- !app_assoc in E. exact (short_not d r1 _ Ld S1 E).
    - exfalso. cbn [forest app] in E. destruct (Start t1 o) as [y Y]. rewrite Y, <- !app_assoc in E. symmetry in E. exact (short_not d r2 _ Ld S2 E).
    - cbn [sizes fold_right] in Sz. fold (sizes ts1) in Sz. pose proof (size_pos t1) as Sp.
      destruct t1 as [k1 s1|k1 cs1], t2 as [k2 s2|k2 cs2]; cbn [forest] in E; rewrite ?lines_node in E; cbn [lines] in E; unfold token_line, node_line in E; rewrite <- !app_assoc in E;
      change (txt " ") with [32%N] in E; cbn [app] in E.
      + apply line_inj in E; [|apply not_digit_space|apply not_digit_space]. destruct E as (<- & L & _ & E). destruct (known_leaf _ _ _ _ _ _ _ _ X ltac:(lia) E) as (<- & E' & X').
        injection E' as E'. destruct (IH (sizes ts1)) with (ts1 := ts1) (ts2 := ts2) (d := d) (o := o + tree_len (Leaf k1 s1)) (r1 := r1) (r2 := r2) as [<- <-]; auto; lia.
      + exfalso. apply line_inj in E; [|apply not_digit_space|apply not_digit_nl]. destruct E as (_ & _ & Z & _). discriminate Z.
      + exfalso. apply line_inj in E; [|apply not_digit_nl|apply not_digit_space]. destruct E as (_ & _ & Z & _). discriminate Z.
      + apply line_inj in E; [|apply not_digit_nl|apply not_digit_nl]. destruct E as (<- & L & _ & E). destruct (known_node _ _ _ _ _ _ X) as [X1 X2]. cbn [size] in Sz. fold (sizes cs1) in Sz.
        destruct (IH (sizes cs1)) with (ts1 := cs1) (ts2 := cs2) (d := S d) (o := o) (r1 := forest d (o + tree_len (Node k1 cs1)) ts1 ++ r1) (r2 := forest d (o + tree_len (Node k1 cs2)) ts2 ++ r2) as [<- E']; auto; try lia; try (apply forest_short; assumption).
        destruct (IH (sizes ts1)) with (ts1 := ts1) (ts2 := ts2) (d := d) (o := o + tree_len (Node k1 cs1)) (r1 := r1) (r2 := r2) as [<- <-]; auto; lia.
  Qed.
  Lemma lines_inj t1 t2 r1 r2 : short 1 r1 -> short 1 r2 -> lines 0 0 t1 ++ r1 = lines 0 0 t2 ++ r2 -> known [t1] [t2] -> t1 = t2 /\ r1 = r2.
  Proof.
    intros S1 S2 E X.
    destruct t1 as [k1 s1|k1 cs1], t2 as [k2 s2|k2 cs2]; rewrite ?lines_node in E; cbn [lines] in E; unfold token_line, node_line in E; rewrite <- !app_assoc in E;
    change (txt " ") with [32%N] in E; cbn [app] in E.
    - apply (line_inj 0) in E; [|apply not_digit_space|apply not_digit_space]. destruct E as (<- & L & _ & E). destruct (known_leaf _ _ _ _ _ _ _ _ X ltac:(lia) E) as (<- & E' & X'). now injection E' as ->.
    - exfalso. apply (line_inj 0) in E; [|apply not_digit_space|apply not_digit_nl]. destruct E as (_ & _ & Z & _). discriminate Z.
    - exfalso. apply (line_inj 0) in E; [|apply not_digit_nl|apply not_digit_space]. destruct E as (_ & _ & Z & _). discriminate Z.
    - apply (line_inj 0) in E; [|apply not_digit_nl|apply not_digit_nl]. destruct E as (<- & L & _ & E). destruct (known_node _ _ _ _ _ _ X) as [X1 X2].
      destruct (forest_inj _ cs1 (Nat.le_refl _) cs2 1 0 r1 r2 (Nat.le_refl _) S1 S2 E X1) as [<- <-]. auto.
  Qed.
  Lemma lines_end t d o : exists x, lines d o t = x ++ [10%N].
  Proof.
    revert d o. induction t as [k s|k cs IH] using tree_induction; intros d o.
    - cbn [lines]. unfold token_line. eexists. rewrite !app_assoc. reflexivity.
    - rewrite lines_node. assert (F : forall o, forest (S d) o cs = [] \/ exists x, forest (S d) o cs = x ++ [10%N]).
      { induction IH as [|c cs Hc _ IHs]; intros o'; [now left|]. right. cbn [forest]. destruct (IHs (o' + tree_len c)) as [-> | [x ->]]; [rewrite app_nil_r; apply Hc|]. eexists. rewrite app_assoc. reflexivity. }
      destruct (F o) as [-> | [x ->]]; [|eexists; rewrite app_assoc; reflexivity]. rewrite app_nil_r. unfold node_line. eexists. rewrite !app_assoc. reflexivity.
  Qed.
  Lemma debug_tree_lines t : exists x, debug_tree printable t = Some x /\ lines 0 0 t = x ++ [10%N].
  Proof. unfold debug_tree. rewrite tree_debug_lines. destruct (lines_end t 0 0) as [x E]. exists x. rewrite E. cbn [option_map]. now rewrite removelast_last. Qed.
  (** The lines of the errors. *)
  Definition told (errs : list perror) : text := flat_map (fun e => match error_display e with Some m => m ++ [10%N] | None => [] end) errs.
  Lemma debug_parse_lines t errs : (forall e, In e errs -> error_display e <> None) ->
    exists x, debug_parse printable t errs = Some x /\ x ++ [10%N] = lines 0 0 t ++ told errs.
  Proof.
    intros H. unfold debug_parse. destruct (debug_tree_lines t) as (x & -> & ->).
    revert x H. induction errs as [|e errs IH]; intros x H; cbn [fold_left told flat_map].
    - exists x. now rewrite app_nil_r.
    - destruct (error_display e) as [m|] eqn:Em; [|exfalso; apply (H e); [now left|exact Em]]. destruct (IH (x ++ [10%N] ++ m)) as (y & Y & Z); [intros e' I; apply H; now right|].
      exists y. split; [exact Y|]. rewrite Z. fold (told errs). now rewrite <- !app_assoc.
  Qed.
  Lemma error_start e m : error_display e = Some m -> exists w, m = 101%N :: w.
  Proof. unfold error_display. destruct (expected_message e) as [x|]; [|discriminate]. cbn [option_map]. intros H. injection H as <-. change (txt "error at ") with (101%N :: txt "rror at "). cbn [app]. eauto. Qed.
  Lemma told_short errs : (forall e, In e errs -> error_display e <> None) -> short 1 (told errs).
  Proof.
    intros H. destruct errs as [|e errs]; [now left|]. right. cbn [told flat_map]. destruct (error_display e) as [m|] eqn:Em; [|exfalso; apply (H e); [now left|exact Em]]. destruct (error_start e m Em) as [w ->].
    eexists 0, 101%N, _. split; [reflexivity|]. split; [discriminate|lia].
  Qed.
End Escape.

(** * The theorems *)
(** For every set of characters that are printed as they are. *)
(** Printing a parsed template never fails. *)
Theorem C84_printing_never_fails : forall printable dbg src t errs, parse_src dbg src = OK (t, errs) ->
  debug_tree printable t <> None /\ debug_parse printable t errs <> None.
Proof.
  intros printable dbg src t errs P. pose proof (PropParser.C40_errors_printable _ _ _ _ P) as D. split.
  - destruct (debug_tree_lines printable t) as (x & -> & _). discriminate.
  - destruct (debug_parse_lines printable t errs D) as (x & -> & _). discriminate.
Qed.

(** With the text at hand the printed tree determines the tree (of any two trees, whether
    they come from the parser or not). *)
Theorem C84_printed_tree_determines_the_tree : forall printable t1 t2, tree_text t1 = tree_text t2 ->
  debug_tree printable t1 = debug_tree printable t2 -> t1 = t2.
Proof.
  intros printable t1 t2 X E. destruct (debug_tree_lines printable t1) as (x1 & E1 & L1). destruct (debug_tree_lines printable t2) as (x2 & E2 & L2). rewrite E1, E2 in E. injection E as ->.
  apply (lines_inj printable t1 t2 [] []); [now left|now left|now rewrite L1, L2|]. left. exists [], []. unfold trees_text. cbn [flat_map]. now rewrite X.
Qed.

(** Without the text as well, if no token is as long as 25 bytes. *)
Theorem C84_printed_tree_determines_the_text : forall printable t1 t2,
  (forall t k s, t = t1 \/ t = t2 -> In (k, s) (leaves t) -> blen s < 25) ->
  debug_tree printable t1 = debug_tree printable t2 -> t1 = t2.
Proof.
  intros printable t1 t2 B E. destruct (debug_tree_lines printable t1) as (x1 & E1 & L1). destruct (debug_tree_lines printable t2) as (x2 & E2 & L2). rewrite E1, E2 in E. injection E as ->.
  apply (lines_inj printable t1 t2 [] []); [now left|now left|now rewrite L1, L2|]. right. split; (constructor; [|constructor]); intros k s; apply B; auto.
Qed.

(** The same with the syntax errors below the tree. *)
Theorem C84_printed_parse_determines_the_parse : forall printable t1 t2 errs1 errs2, tree_text t1 = tree_text t2 ->
  (forall e, In e errs1 \/ In e errs2 -> exists m, error_display e = Some m /\ ~ In 10%N m) ->
  debug_parse printable t1 errs1 = debug_parse printable t2 errs2 -> t1 = t2 /\ map error_display errs1 = map error_display errs2.
Proof.
  intros printable t1 t2 errs1 errs2 X D E.
  assert (D1 : forall e, In e errs1 -> error_display e <> None) by (intros e I; destruct (D e (or_introl I)) as (m & -> & _); discriminate).
  assert (D2 : forall e, In e errs2 -> error_display e <> None) by (intros e I; destruct (D e (or_intror I)) as (m & -> & _); discriminate).
  destruct (debug_parse_lines printable t1 errs1 D1) as (x1 & E1 & L1). destruct (debug_parse_lines printable t2 errs2 D2) as (x2 & E2 & L2). rewrite E1, E2 in E. injection E as ->. rewrite L1 in L2.
  destruct (lines_inj printable t1 t2 (told errs1) (told errs2)) as [-> T]; [now apply told_short|now apply told_short|exact L2| |].
  { left. exists [], []. unfold trees_text. cbn [flat_map]. now rewrite X. }
  split; [reflexivity|]. clear - D T. revert errs2 D T. induction errs1 as [|e errs1 IH]; intros [|e' errs2] D T; [reflexivity| | |]; cbn [told flat_map] in T.
  - exfalso. destruct (D e') as (m & Em & _); [right; now left|]. rewrite Em in T. destruct m; discriminate T.
  - exfalso. destruct (D e) as (m & Em & _); [left; now left|]. rewrite Em in T. destruct m; discriminate T.
  - destruct (D e) as (m & Em & M); [left; now left|]. destruct (D e') as (m' & Em' & M'); [right; now left|]. cbn [map]. rewrite Em, Em' in *. rewrite <- !app_assoc in T. cbn [app] in T.
    apply (split_first (fun c => c <> 10%N)) in T; [|apply Forall_forall; intros c I ->; contradiction|apply Forall_forall; intros c I ->; contradiction|intros Z; now apply Z|intros Z; now apply Z].
    destruct T as (-> & _ & T). f_equal. apply IH; [|exact T]. intros f [I|I]; apply D; [left; now right|right; now right].
Qed.

(** The example of the documentation (lib.rs:36-57). *)
Definition ascii_printable (c : N) : bool := ((32 <=? c) && (c <=? 126))%N.
Definition case_debug (src : text) : option text := match parse_src true src with OK (t, errs) => debug_parse ascii_printable t errs | _ => None end.
Definition nl : text := [10%N].
Definition quoted (s : string) : text := [34%N] ++ txt s ++ [34%N].
Example C84_case_documentation : case_debug (txt "{{ 42 }}") = Some (
  txt "ROOT@0..8" ++ nl ++ txt "  TWIG_VAR@0..8" ++ nl ++ txt "    TK_OPEN_CURLY_CURLY@0..2 " ++ quoted "{{" ++ nl ++
  txt "    TWIG_EXPRESSION@2..5" ++ nl ++ txt "      TWIG_LITERAL_NUMBER@2..5" ++ nl ++ txt "        TK_WHITESPACE@2..3 " ++ quoted " " ++ nl ++
  txt "        TK_NUMBER@3..5 " ++ quoted "42" ++ nl ++ txt "    TK_WHITESPACE@5..6 " ++ quoted " " ++ nl ++ txt "    TK_CLOSE_CURLY_CURLY@6..8 " ++ quoted "}}").
Proof. vm_compute. reflexivity. Qed.
(** A token of 26 bytes is cut off (grammar.rs:196), errors come below the tree. *)
Example C84_case_long : case_debug (txt "twig-block-name-snake-case</p>") = Some (
  txt "ROOT@0..30" ++ nl ++ txt "  HTML_TEXT@0..26" ++ nl ++ txt "    TK_WORD@0..26 " ++ quoted "twig-block-name-snake ..." ++ nl ++
  txt "  ERROR@26..30" ++ nl ++ txt "    TK_LESS_THAN_SLASH@26..28 " ++ quoted "</" ++ nl ++ txt "    TK_WORD@28..29 " ++ quoted "p" ++ nl ++ txt "    TK_GREATER_THAN@29..30 " ++ quoted ">" ++ nl ++
  txt "error at 26..28: expected html, text or twig element but found </").
Proof. vm_compute. reflexivity. Qed.
(** Without the text such a tree is not determined. *)
Example C84_case_cut_off : case_debug (txt "twig-block-name-snake-case") = case_debug (txt "twig-block-name-snake-cost").
Proof. vm_compute. reflexivity. Qed.

Print Assumptions C84_printing_never_fails.
Print Assumptions C84_printed_tree_determines_the_tree.
Print Assumptions C84_printed_tree_determines_the_text.
Print Assumptions C84_printed_parse_determines_the_parse.
