(** What one round of layout fixes does to the lines of a template.  Machinery for C72. *)
From Coq Require Import NArith String Bool Arith Lia Permutation List.
Import ListNotations.
From Verif Require Import Text Kind Regex Lexer LexerProofs ParserApi Machine TreeSpec Layout.
From Verif Require PropLexer PropParser PropLines LexLayout LayoutSim PropIndent PropSkel.
From Verif Require Import Relaid Snug.
From Verif Require Import Red Typed Rule Rules Check Process RedFacts WalkSpec PropProcess PropRun PropTree PropOff Found PropFound PropFound6 Tidy Nested.
Local Notation length := List.length (only parsing).
Local Open Scope list_scope.

Definition by_start (edits : list suggestion) : Prop := pairwise (fun s s' => sg_start s < sg_start s') edits.

Lemma ls_tail x y n : PropIndent.line_start (x ++ n) -> n <> [] -> PropIndent.line_start (y ++ n) /\ exists n', n = n' ++ [10%N].
Proof.
  intros H N. destruct (exists_last N) as (n' & z & ->). destruct H as [H|(a & H)].
  - destruct x, n'; discriminate H.
  - rewrite app_assoc in H. apply app_inj_tail in H as [_ ->]. split; [|now exists n']. right. exists (y ++ n'). now rewrite app_assoc.
Qed.
Lemma ls_blank x n : PropIndent.line_start (x ++ n) -> PropIndent.blanks n -> n = [].
Proof.
  intros H B. destruct n as [|c n]; [reflexivity|]. destruct (ls_tail x [] (c :: n) H ltac:(discriminate)) as (_ & n' & E). exfalso.
  unfold PropIndent.blanks in B. rewrite E in B. apply Forall_app in B as [_ B]. inversion B as [|? ? X]; subst. discriminate X.
Qed.
Lemma blanks_lfs w : PropIndent.blanks w -> lfs w = 0.
Proof.
  intros B. apply lfs_none. intros I. unfold PropIndent.blanks in B. rewrite Forall_forall in B. specialize (B _ I). discriminate B.
Qed.
Lemma same_first_lf k x y : same_first (k ++ 10%N :: x) (k ++ 10%N :: y).
Proof.
  destruct (same_first_refl (k ++ [10%N])) as (l & N & [[E _]|(v & _ & E & _)]); [exfalso; apply N; rewrite <- E; apply in_or_app; right; now left|].
  assert (A : forall z, k ++ 10%N :: z = l ++ 10%N :: v ++ z).
  { intros z. change (10%N :: z) with ([10%N] ++ z). rewrite app_assoc, E, <- app_assoc. reflexivity. }
  exists l. split; [exact N|]. right. exists (v ++ x), (v ++ y). split; apply A.
Qed.
Lemma first_line_kept : forall edits pre t new, edited (blen pre) t edits new -> Forall (PropIndent.indent_edit (pre ++ t)) edits ->
  Forall (fun s => sg_start s <> blen pre) edits \/ ~ PropIndent.line_start pre -> same_first t new.
Proof.
  intros [|s edits] pre t new D F H; inversion D as [|? keep old rest ? ? n S1 S2 D' E1 E2 E3]; subst; [apply same_first_refl|].
  inversion F as [|? ? (a & o & b & Es & A & O & N & L1 & L2) F']; subst.
  assert (Q : (pre ++ keep) ++ old ++ rest = a ++ o ++ b) by (rewrite <- Es, <- app_assoc; reflexivity).
  apply PropIndent.blen_inj in Q as [<- Q]; [|rewrite blen_app; lia].
  assert (Nk : keep <> []).
  { intros ->. rewrite app_nil_r in A. destruct H as [H|H]; [|contradiction]. apply Forall_inv in H. cbn [blen] in S1. lia. }
  destruct (ls_tail pre [] keep A Nk) as (_ & k & ->). rewrite <- !app_assoc. apply same_first_lf.
Qed.

Lemma edit_effect : forall edits pre t new, edited (blen pre) t edits new -> Forall (PropIndent.indent_edit (pre ++ t)) edits -> by_start edits ->
  forall a' c', new = a' ++ c' -> PropIndent.line_start (pre ++ a') ->
  exists a c, t = a ++ c /\ PropIndent.line_start (pre ++ a) /\ lfs c = lfs c' /\
    ((same_first c c' /\ Forall (fun s => sg_start s <> blen (pre ++ a)) edits) \/
     (exists s old r r', In s edits /\ sg_start s = blen (pre ++ a) /\ sg_end s = sg_start s + blen old /\
        c = old ++ r /\ c' = sg_text s ++ r' /\ same_first r r')).
Proof.
  induction edits as [|s edits IH]; intros pre t new D F B; inversion D as [|? keep old rest ? ? n S1 S2 D' E1 E2 E3]; subst; intros a' c' En LS.
  { exists a', c'. split; [exact En|]. split; [exact LS|]. split; [reflexivity|]. left. split; [apply same_first_refl|constructor]. }
  inversion F as [|? ? (a & o & b & Es & A & O & N & L1 & L2) F']; subst. destruct B as [B1 B2].
  assert (Q : (pre ++ keep) ++ old ++ rest = a ++ o ++ b) by (rewrite <- Es, <- app_assoc; reflexivity).
  apply PropIndent.blen_inj in Q as [<- Q]; [|rewrite blen_app; lia]. apply PropIndent.blen_inj in Q as [<- <-]; [|lia].
  assert (Ep : pre ++ keep ++ old ++ rest = (pre ++ keep ++ old) ++ rest) by now rewrite <- !app_assoc.
  assert (Eb : sg_end s = blen (pre ++ keep ++ old)) by (rewrite !blen_app; lia).
  rewrite Eb in D'. rewrite Ep in F'.
  assert (Lf : lfs rest = lfs n).
  { pose proof (PropIndent.edited_same_lines _ _ _ _ D' F') as SL. apply same_lines_lfs in SL. rewrite !lfs_app in SL. lia. }
  assert (Here : forall c', c' = sg_text s ++ n -> exists a c, keep ++ old ++ rest = a ++ c /\ PropIndent.line_start (pre ++ a) /\ lfs c = lfs c' /\
    ((same_first c c' /\ Forall (fun s => sg_start s <> blen (pre ++ a)) (s :: edits)) \/
     (exists s0 old r r', In s0 (s :: edits) /\ sg_start s0 = blen (pre ++ a) /\ sg_end s0 = sg_start s0 + blen old /\ c = old ++ r /\ c' = sg_text s0 ++ r' /\ same_first r r'))).
  { intros c -> . exists keep, (old ++ rest). split; [reflexivity|]. split; [exact A|]. split; [rewrite !lfs_app, (blanks_lfs _ O), (blanks_lfs _ N); lia|]. right.
    exists s, old, rest, n. split; [now left|]. split; [rewrite blen_app; lia|]. split; [lia|]. split; [reflexivity|]. split; [reflexivity|].
    apply (first_line_kept edits (pre ++ keep ++ old)); [exact D'|exact F'|]. destruct old as [|x old].
    - left. rewrite app_nil_r, blen_app, <- S1. revert B1. apply Forall_impl. intros y Hy. lia.
    - right. intros X. rewrite app_assoc in X. apply ls_blank in X; [discriminate X|exact O]. }
  symmetry in En. apply app_eq_app in En as (d & [[E1 E2]|[E1 E2]]).
  - destruct d as [|x d]; [rewrite app_nil_r in E1; subst a'; cbn [app] in E2; apply Here; now symmetry|]. subst a'.
    assert (Nd : x :: d <> []) by discriminate. set (d0 := x :: d) in *. clearbody d0. clear x d. apply app_eq_app in E2 as (e & [[E2 E3]|[E2 E3]]).
    + exfalso. rewrite app_assoc in LS. apply ls_blank in LS; [contradiction|]. rewrite E2 in N. unfold PropIndent.blanks in *. now apply Forall_app in N.
    + destruct e as [|x e].
      { exfalso. rewrite app_nil_r in E2. subst d0. rewrite app_assoc in LS. apply ls_blank in LS; [contradiction|exact N]. }
      assert (Ne : x :: e <> []) by discriminate. set (n1 := x :: e) in *. clearbody n1. clear x e. subst d0.
      rewrite !app_assoc in LS. destruct (ls_tail _ (pre ++ keep ++ old) n1 LS Ne) as (LS' & n2 & En1).
      destruct (IH (pre ++ keep ++ old) rest n D' F' B2 n1 c' E3 LS') as (a2 & c2 & Er & LS2 & Lf2 & C).
      assert (Na : a2 <> []). { intros ->. cbn [app] in Er. subst c2. rewrite E3, En1, !lfs_app in Lf. cbn [lfs] in Lf. change (N.eqb 10 10) with true in Lf. cbn in Lf. lia. }
      assert (Lp : blen (pre ++ keep ++ old ++ a2) = blen ((pre ++ keep ++ old) ++ a2)) by (rewrite !blen_app; lia).
      exists (keep ++ old ++ a2), c2. split; [rewrite Er, <- !app_assoc; reflexivity|]. split; [rewrite <- !app_assoc in LS2; exact LS2|]. split; [exact Lf2|].
      destruct C as [[C1 C2]|(s0 & o0 & r & r' & C1 & C2 & C3)].
      * left. split; [exact C1|]. rewrite Lp. constructor; [|exact C2]. rewrite !blen_app. destruct a2 as [|x a2]; [contradiction|]. cbn [blen]. pose proof (utf8_len_pos x). lia.
      * right. exists s0, o0, r, r'. split; [now right|]. split; [rewrite Lp; exact C2|exact C3].
  - subst keep. destruct d as [|x d]; [rewrite app_nil_r in *; cbn [app] in E2; apply Here; exact E2|].
    assert (Nd : x :: d <> []) by discriminate. set (k := x :: d) in *. clearbody k. clear x d.
    rewrite app_assoc in A. destruct (ls_tail _ [] k A Nd) as (_ & k' & ->). exists a', ((k' ++ [10%N]) ++ old ++ rest). split; [now rewrite <- !app_assoc|]. split; [exact LS|].
    split; [rewrite E2, !lfs_app, (blanks_lfs _ O), (blanks_lfs _ N); lia|]. left. split; [rewrite E2, <- !app_assoc; apply same_first_lf|].
    assert (P : blen (pre ++ a') < sg_start s). { rewrite S1, !blen_app. change (blen [10%N]) with 1. lia. }
    constructor; [lia|]. revert B1. apply Forall_impl. intros y Hy. lia.
Qed.
