(** Property theorems about the tokens themselves: C70. *)
From Coq Require Import NArith String Bool Lia Arith List.
Import ListNotations.
From Verif Require Import Text Kind Regex Lexer LexerProofs.
From Verif Require PropLexer.
Local Open Scope list_scope.
Local Notation length := List.length (only parsing).

(** * The spec: what a piece of text must look like to be called what it is called

    Written over characters, without regular expressions and without the table of the
    lexer. *)

Definition between (lo hi c : N) : Prop := (lo <= c <= hi)%N.
Definition digit (c : N) : Prop := between 48 57 c.
Definition letter (c : N) : Prop := between 97 122 c \/ between 65 90 c.
Definition hex (c : N) : Prop := digit c \/ between 97 102 c \/ between 65 70 c.
(** What a name may consist of: letters, digits, [_] and [-]. *)
Definition name_char (c : N) : Prop := letter c \/ digit c \/ c = 95%N \/ c = 45%N.

(** At least one character, all of one sort. *)
Definition some (P : N -> Prop) (w : text) : Prop := w <> [] /\ Forall P w.

(** Blanks and tabs. *)
Definition blank (w : text) : Prop := some (fun c => c = 32%N \/ c = 9%N) w.
(** Line feeds, each perhaps with a carriage return before it. *)
Inductive breaks : text -> Prop :=
| brk_lf : breaks [10%N]
| brk_crlf : breaks [13%N; 10%N]
| brk_more a b : breaks a -> breaks b -> breaks (a ++ b).
(** A name: begins with a letter, or with one of [@ # _ $] and a letter, or is a [_]
    followed by anything a name may consist of. *)
Definition word (w : text) : Prop :=
  exists h r, w = h ++ r /\ Forall name_char r /\
    ((exists c, letter c /\ h = [c]) \/
     (exists m c, In m (txt "@#_$") /\ letter c /\ h = [m; c]) \/
     h = txt "_").
(** [twig] followed by at least one [:name]. *)
Inductive parts : text -> Prop :=
| parts_one n : some name_char n -> parts (txt ":" ++ n)
| parts_more n p : some name_char n -> parts p -> parts ((txt ":" ++ n) ++ p).
Definition component (w : text) : Prop := exists p, w = txt "twig" ++ p /\ parts p.
(** Digits, perhaps a fraction, perhaps an exponent with a sign. *)
Definition number (w : text) : Prop :=
  exists i f e, w = i ++ f ++ e /\ some digit i /\
    (f = [] \/ exists d, some digit d /\ f = txt "." ++ d) /\
    (e = [] \/ exists m s d, In m (txt "eE") /\ In s (txt "+-") /\ some digit d /\ e = [m; s] ++ d).
(** [&name;], [&#1;] or [&#xA;]. *)
Definition escape (w : text) : Prop :=
  exists b, w = txt "&" ++ b ++ txt ";" /\
    ((exists c r, b = c :: r /\ letter c /\ Forall (fun c => letter c \/ digit c) r) \/
     (exists d, b = txt "#" ++ d /\ some digit d) \/
     (exists d, b = txt "#x" ++ d /\ some hex d)).

Definition any_case (a b : text) : Prop := map to_lower_ascii a = map to_lower_ascii b.

(** [reads k w]: text [w] is what the kind [k] of tokens is called in messages, or has
    the shape of the things so called. *)
Definition reads (k : kind) (w : text) : Prop :=
  match k with
  | TK_WHITESPACE => blank w
  | TK_LINE_BREAK => breaks w
  | TK_WORD => word w
  | TK_TWIG_COMPONENT_NAME => component w
  | TK_NUMBER => number w
  | TK_HTML_ESCAPE_CHARACTER => escape w
  | TK_UNKNOWN => length w = 1
  | TK_DOCTYPE | TK_TRUE | TK_FALSE | TK_NONE | TK_NULL | TK_LUDTWIG_IGNORE
  | TK_LUDTWIG_IGNORE_FILE => exists name, kind_display k = Some name /\ any_case w (txt name)
  | _ => exists name, kind_display k = Some name /\ w = txt name
  end.

(** The kinds that stand for a shape, not for one fixed text. *)
Definition shaped : list kind :=
  [TK_WHITESPACE; TK_LINE_BREAK; TK_WORD; TK_TWIG_COMPONENT_NAME; TK_NUMBER;
   TK_HTML_ESCAPE_CHARACTER; TK_UNKNOWN].
(** A kind some source has a token of. *)
Definition occurs (k : kind) : Prop := exists src t, In t (lex src) /\ tk_kind t = k.

(** * The regular expressions mean the shapes *)

Lemma in_class_iff : forall cl c, in_class cl c = true <-> Exists (fun r => between (fst r) (snd r) c) cl.
Proof.
  intros cl c. unfold in_class. rewrite existsb_exists, Exists_exists.
  split; intros (r & H1 & H2); exists r; (split; [exact H1|]); destruct r as [lo hi];
    unfold in_range, between in *; cbn [fst snd] in *.
  - apply andb_true_iff in H2 as [A B]. apply N.leb_le in A, B. lia.
  - apply andb_true_iff. split; apply N.leb_le; lia.
Qed.
Ltac cls := unfold cl_digit, cl_letter, cl_word; rewrite in_class_iff;
  repeat (rewrite Exists_cons; cbn [fst snd]); rewrite Exists_nil;
  unfold name_char, hex, letter, digit, between; try lia.

Lemma c_digit : forall c, in_class cl_digit c = true <-> digit c.
Proof. intros c. cls. Qed.
Lemma c_letter : forall c, in_class cl_letter c = true <-> letter c.
Proof. intros c. cls. Qed.
Lemma c_word : forall c, in_class cl_word c = true <-> name_char c.
Proof. intros c. cls. Qed.
Lemma c_blank : forall c, in_class [(32,32);(9,9)]%N c = true <-> c = 32%N \/ c = 9%N.
Proof. intros c. cls. Qed.
Lemma c_alnum : forall c, in_class [(97,122);(65,90);(48,57)]%N c = true <-> letter c \/ digit c.
Proof. intros c. cls. Qed.
Lemma c_hex : forall c, in_class [(48,57);(97,102);(65,70)]%N c = true <-> hex c.
Proof. intros c. cls. Qed.

Lemma m_class : forall cl w, rmatch (RClass cl) w <-> exists c, w = [c] /\ in_class cl c = true.
Proof.
  intros cl w. split.
  - intros H. inversion H; subst. eauto.
  - intros (c & -> & H). constructor; exact H.
Qed.
Lemma m_char : forall c w, rmatch (RChar c) w <-> w = [c].
Proof.
  intros c w. unfold RChar. rewrite m_class. split.
  - intros (d & -> & H). apply in_class_iff in H. inversion H as [? ? A|? ? A]; subst; [|inversion A].
    unfold between in A. cbn in A. f_equal. lia.
  - intros ->. exists c. split; [reflexivity|]. cls.
Qed.
Lemma m_seq : forall a b w, rmatch (RSeq a b) w <-> exists u v, w = u ++ v /\ rmatch a u /\ rmatch b v.
Proof.
  intros a b w. split.
  - intros H. apply rseq_inv in H as (u & v & E & A & B). eauto.
  - intros (u & v & -> & A & B). constructor; assumption.
Qed.
Lemma m_alt : forall a b w, rmatch (RAlt a b) w <-> rmatch a w \/ rmatch b w.
Proof.
  intros a b w. split.
  - intros H. inversion H; subst; auto.
  - intros [H|H]; [apply MAltL|apply MAltR]; exact H.
Qed.
Lemma m_opt : forall a w, rmatch (ROpt a) w <-> w = [] \/ rmatch a w.
Proof.
  intros a w. unfold ROpt. rewrite m_alt. split.
  - intros [H|H]; [auto|]. inversion H. auto.
  - intros [->|H]; [right; constructor|auto].
Qed.
Lemma m_star_class : forall cl P w, (forall c, in_class cl c = true <-> P c) ->
  rmatch (RStar (RClass cl)) w <-> Forall P w.
Proof.
  intros cl P w H. rewrite star_class, forallb_forall, Forall_forall.
  split; intros A c Hc; apply H, A, Hc.
Qed.
Lemma m_plus_class : forall cl P w, (forall c, in_class cl c = true <-> P c) ->
  rmatch (RPlus (RClass cl)) w <-> some P w.
Proof.
  intros cl P w H. unfold RPlus, some. rewrite m_seq. split.
  - intros (u & v & -> & A & B). apply m_class in A as (c & -> & A).
    apply (m_star_class cl P _ H) in B. split; [discriminate|]. constructor; [apply H; exact A|exact B].
  - intros [N F]. destruct w as [|c w]; [contradiction|]. inversion F; subst.
    exists [c], w. split; [reflexivity|]. split.
    + apply m_class. exists c. split; [reflexivity|]. apply H. assumption.
    + apply (m_star_class cl P _ H). assumption.
Qed.

Lemma ws_shape : forall w, rmatch re_ws w <-> blank w.
Proof. intros w. apply m_plus_class. exact c_blank. Qed.

Lemma lb_one : forall w, rmatch (RAlt (RChar 10) (RSeq (RChar 13) (RChar 10))) w <->
  w = [10%N] \/ w = [13%N; 10%N].
Proof.
  intros w. rewrite m_alt, m_char, m_seq. split.
  - intros [->|(u & v & -> & A & B)]; [auto|]. apply m_char in A, B. subst. auto.
  - intros [->| ->]; [auto|]. right. exists [13%N], [10%N]. rewrite !m_char. auto.
Qed.
Lemma star_app : forall a u v, rmatch (RStar a) u -> rmatch (RStar a) v -> rmatch (RStar a) (u ++ v).
Proof.
  intros a u v H. remember (RStar a) as r eqn:E. induction H; inversion E; subst; intros Hv.
  - exact Hv.
  - rewrite <- app_assoc. constructor; auto.
Qed.
Lemma lb_shape : forall w, rmatch re_lb w <-> breaks w.
Proof.
  intros w. unfold re_lb, RPlus. split.
  - intros H. apply rseq_inv in H as (u & v & -> & A & B).
    assert (Hu : breaks u) by (apply lb_one in A as [->| ->]; constructor).
    clear A. revert u Hu.
    remember (RStar _) as r eqn:E in B. induction B; inversion E; subst; intros u Hu.
    + rewrite app_nil_r. exact Hu.
    + rewrite app_assoc. apply IHB2; [reflexivity|]. apply brk_more; [exact Hu|].
      apply lb_one in B1 as [->| ->]; constructor.
  - induction 1 as [| |a b Ha IHa Hb IHb].
    + apply m_seq. exists [10%N], []. split; [reflexivity|]. split; [apply lb_one; auto|constructor].
    + apply m_seq. exists [13%N; 10%N], []. split; [reflexivity|]. split; [apply lb_one; auto|constructor].
    + apply m_seq in IHa as (u & v & -> & A & B). apply m_seq in IHb as (u' & v' & -> & A' & B').
      apply m_seq. exists u, (v ++ u' ++ v'). rewrite <- app_assoc. split; [reflexivity|].
      split; [exact A|]. apply star_app; [exact B|]. constructor; assumption.
Qed.

Lemma word_shape : forall w, rmatch re_word w <-> word w.
Proof.
  intros w. unfold re_word, word. rewrite m_seq. split.
  - intros (u & v & -> & A & B). exists u, v. split; [reflexivity|].
    apply (m_star_class _ _ _ c_word) in B. split; [exact B|].
    apply m_alt in A as [A|A]; [|apply m_alt in A as [A|A]].
    + apply m_class in A as (c & -> & A). apply c_letter in A. eauto.
    + apply m_seq in A as (x & y & -> & X & Y). apply m_class in X as (m & -> & X).
      apply m_class in Y as (c & -> & Y). apply c_letter in Y. right; left. exists m, c.
      split; [|auto]. apply in_class_iff in X.
      repeat (apply Exists_cons in X as [X|X];
              [unfold between in X; cbn [fst snd] in X; cbn; lia|]). inversion X.
    + apply m_char in A. auto.
  - intros (h & r & -> & B & A). exists h, r. split; [reflexivity|]. split.
    + destruct A as [(c & A & ->)|[(m & c & M & A & ->)| ->]]; rewrite m_alt.
      * left. apply m_class. exists c. rewrite c_letter. auto.
      * right. apply m_alt. left. apply m_seq. exists [m], [c]. split; [reflexivity|].
        rewrite !m_class. split; eexists; (split; [reflexivity|]).
        -- cbn in M. repeat (destruct M as [<-|M]; [reflexivity|]). destruct M.
        -- apply c_letter; exact A.
      * right. apply m_alt. right. apply m_char. reflexivity.
    + apply (m_star_class _ _ _ c_word). exact B.
Qed.

Lemma part_shape : forall w, rmatch (RSeq (RChar 58) (RPlus (RClass cl_word))) w <->
  exists n, some name_char n /\ w = txt ":" ++ n.
Proof.
  intros w. rewrite m_seq. split.
  - intros (u & v & -> & A & B). apply m_char in A as ->.
    apply (m_plus_class _ _ _ c_word) in B. exists v. auto.
  - intros (n & A & ->). exists [58%N], n. split; [reflexivity|]. rewrite m_char.
    split; [reflexivity|]. apply (m_plus_class _ _ _ c_word). exact A.
Qed.
Lemma parts_shape : forall w, rmatch (RPlus (RSeq (RChar 58) (RPlus (RClass cl_word)))) w <-> parts w.
Proof.
  intros w. unfold RPlus at 1. split.
  - intros H. apply rseq_inv in H as (u & v & -> & A & B).
    apply part_shape in A as (n & A & ->). revert n A.
    remember (RStar _) as r eqn:E in B. induction B; inversion E; subst; intros n A.
    + rewrite app_nil_r. constructor; exact A.
    + apply part_shape in B1 as (n' & A' & ->). apply parts_more; [exact A|].
      apply IHB2; [reflexivity|exact A'].
  - induction 1 as [n A|n p A Hp IH]; apply m_seq.
    + exists (txt ":" ++ n), []. rewrite app_nil_r. split; [reflexivity|].
      split; [apply part_shape; eauto|constructor].
    + exists (txt ":" ++ n), p. split; [reflexivity|]. split; [apply part_shape; eauto|].
      apply m_seq in IH as (u & v & -> & C & D). constructor; assumption.
Qed.
Lemma component_shape : forall w, rmatch re_component w <-> component w.
Proof.
  intros w. unfold re_component, component. split.
  - intros H. apply m_seq in H as (a & b & -> & A & H). apply m_char in A as ->.
    apply m_seq in H as (a & b1 & -> & A & H). apply m_char in A as ->.
    apply m_seq in H as (a & b2 & -> & A & H). apply m_char in A as ->.
    apply m_seq in H as (a & b3 & -> & A & H). apply m_char in A as ->.
    exists b3. split; [reflexivity|]. apply parts_shape; exact H.
  - intros (p & -> & H). apply parts_shape in H.
    apply m_seq. exists [116%N], (txt "wig" ++ p). rewrite m_char. do 2 (split; [reflexivity|]).
    apply m_seq. exists [119%N], (txt "ig" ++ p). rewrite m_char. do 2 (split; [reflexivity|]).
    apply m_seq. exists [105%N], (txt "g" ++ p). rewrite m_char. do 2 (split; [reflexivity|]).
    apply m_seq. exists [103%N], p. rewrite m_char. do 2 (split; [reflexivity|]). exact H.
Qed.

Lemma number_shape : forall w, rmatch re_number w <-> number w.
Proof.
  intros w. unfold re_number, number. split.
  - intros H. apply m_seq in H as (i & r & -> & A & H). apply m_seq in H as (f & e & -> & B & C).
    exists i, f, e. split; [reflexivity|]. split; [apply (m_plus_class _ _ _ c_digit); exact A|]. split.
    + apply m_opt in B as [B|B]; [auto|right]. apply m_seq in B as (x & d & -> & X & D).
      apply m_char in X as ->. exists d. split; [|reflexivity]. apply (m_plus_class _ _ _ c_digit); exact D.
    + apply m_opt in C as [C|C]; [auto|right]. apply m_seq in C as (x & y & -> & X & Y).
      apply m_seq in Y as (y1 & d & -> & Y & D). apply m_class in X as (m & -> & X).
      apply m_class in Y as (s & -> & Y). exists m, s, d.
      split; [|split; [|split; [apply (m_plus_class _ _ _ c_digit); exact D|reflexivity]]];
        [apply in_class_iff in X|clear X; apply in_class_iff in Y; rename Y into X];
        (repeat (apply Exists_cons in X as [X|X];
              [unfold between in X; cbn [fst snd] in X; cbn; lia|])); inversion X.
  - intros (i & f & e & -> & A & B & C). apply m_seq. exists i, (f ++ e). split; [reflexivity|].
    split; [apply (m_plus_class _ _ _ c_digit); exact A|]. apply m_seq. exists f, e.
    split; [reflexivity|]. split; apply m_opt.
    + destruct B as [->|(d & D & ->)]; [auto|right]. apply m_seq. exists [46%N], d.
      split; [reflexivity|]. rewrite m_char. split; [reflexivity|]. apply (m_plus_class _ _ _ c_digit); exact D.
    + destruct C as [->|(m & s & d & M & S & D & ->)]; [auto|right]. apply m_seq. exists [m], (s :: d).
      split; [reflexivity|]. split.
      * apply m_class. exists m. split; [reflexivity|]. cbn in M.
        repeat (destruct M as [<-|M]; [reflexivity|]). destruct M.
      * apply m_seq. exists [s], d. split; [reflexivity|]. split; [|apply (m_plus_class _ _ _ c_digit); exact D].
        apply m_class. exists s. split; [reflexivity|]. cbn in S.
        repeat (destruct S as [<-|S]; [reflexivity|]). destruct S.
Qed.

Lemma escape_shape : forall w, rmatch re_escape w <-> escape w.
Proof.
  intros w. unfold re_escape, escape. split.
  - intros H. apply m_seq in H as (a & r & -> & A & H). apply m_char in A as ->.
    apply m_seq in H as (b & z & -> & B & Z). apply m_char in Z as ->.
    exists b. split; [reflexivity|].
    apply m_alt in B as [B|B]; [|apply m_alt in B as [B|B]].
    + apply m_seq in B as (x & r & -> & X & R). apply m_class in X as (c & -> & X).
      apply c_letter in X. apply (m_star_class _ _ _ c_alnum) in R. left. exists c, r. auto.
    + apply m_seq in B as (x & d & -> & X & D). apply m_char in X as ->.
      apply (m_plus_class _ _ _ c_digit) in D. right; left. exists d. auto.
    + apply m_seq in B as (x & d & -> & X & D). apply m_char in X as ->.
      apply m_seq in D as (x & d1 & -> & X & D). apply m_char in X as ->.
      apply (m_plus_class _ _ _ c_hex) in D. right; right. exists d1. auto.
  - intros (b & -> & H). apply m_seq. exists [38%N], (b ++ txt ";"). rewrite m_char.
    do 2 (split; [reflexivity|]). apply m_seq. exists b, (txt ";"). rewrite m_char.
    split; [reflexivity|]. split; [|reflexivity]. rewrite !m_alt.
    destruct H as [(c & r & -> & C & R)|[(d & -> & D)|(d & -> & D)]].
    + left. apply m_seq. exists [c], r. split; [reflexivity|]. split.
      * apply m_class. exists c. rewrite c_letter. auto.
      * apply (m_star_class _ _ _ c_alnum). exact R.
    + right; left. apply m_seq. exists [35%N], d. rewrite m_char. do 2 (split; [reflexivity|]).
      apply (m_plus_class _ _ _ c_digit). exact D.
    + right; right. apply m_seq. exists [35%N], (120%N :: d). rewrite m_char. do 2 (split; [reflexivity|]).
      apply m_seq. exists [120%N], d. rewrite m_char. do 2 (split; [reflexivity|]).
      apply (m_plus_class _ _ _ c_hex). exact D.
Qed.

(** * The table *)

(** What a table entry describes reads as its kind. *)
Lemma entry_reads : forall p k w, In (p, k) lex_table -> PropLexer.describes p w -> reads k w.
Proof.
  intros p k w Hi Hd. destruct p as [l|l|r].
  - cbn in Hd. subst w.
    assert (F : forallb (fun e => match fst e with
        | PLit l => match kind_display (snd e) with Some d => String.eqb d l | None => false end &&
            negb (existsb (kind_eqb (snd e)) shaped) &&
            negb (existsb (kind_eqb (snd e))
                    [TK_DOCTYPE; TK_TRUE; TK_FALSE; TK_NONE; TK_NULL; TK_LUDTWIG_IGNORE; TK_LUDTWIG_IGNORE_FILE])
        | _ => true end) lex_table = true) by (vm_compute; reflexivity).
    rewrite forallb_forall in F. specialize (F _ Hi). cbn [fst snd] in F. clear Hi.
    apply andb_true_iff in F as [F F3]. apply andb_true_iff in F as [F1 F2].
    assert (E : kind_display k = Some l).
    { destruct (kind_display k); [|discriminate F1]. apply String.eqb_eq in F1. subst. reflexivity. }
    clear F1. destruct k; try exact (ex_intro _ l (conj E eq_refl));
      first [vm_compute in F2; discriminate F2|vm_compute in F3; discriminate F3].
  - cbn in Hd.
    assert (F : forallb (fun e => match fst e with
        | PLitCI l => match kind_display (snd e) with Some d => String.eqb d l | None => false end &&
            existsb (kind_eqb (snd e))
              [TK_DOCTYPE; TK_TRUE; TK_FALSE; TK_NONE; TK_NULL; TK_LUDTWIG_IGNORE; TK_LUDTWIG_IGNORE_FILE]
        | _ => true end) lex_table = true) by (vm_compute; reflexivity).
    rewrite forallb_forall in F. specialize (F _ Hi). cbn [fst snd] in F. clear Hi.
    apply andb_true_iff in F as [F1 F2].
    assert (E : kind_display k = Some l).
    { destruct (kind_display k); [|discriminate F1]. apply String.eqb_eq in F1. subst. reflexivity. }
    apply existsb_exists in F2 as (k' & Hk & Ek). apply kind_eqb_eq in Ek. subst k'.
    repeat (destruct Hk as [<-|Hk]; [exact (ex_intro _ l (conj E Hd))|]). destruct Hk.
  - cbn in Hd. apply table_re in Hi.
    repeat (destruct Hi as [Hi|Hi];
      [injection Hi as <- <-; cbn [reads];
       first [apply ws_shape|apply lb_shape|apply word_shape|apply component_shape
             |apply number_shape|apply escape_shape]; exact Hd|]). destruct Hi.
Qed.

(** ** C70, first half: every token reads as it is called *)
Theorem C70_tokens_read_as_called : forall src t, In t (lex src) -> reads (tk_kind t) (tk_text t).
Proof.
  intros src t H. apply in_split in H as (pre & post & H).
  destruct (PropLexer.C09_longest_match _ _ _ _ H)
    as [(-> & E & _)|(p & k & w & Hm & Hne & Hcase)]; [exact E|].
  destruct Hm as (_ & Hd & _ & t1 & t2 & Et & _).
  assert (Hi : In (p, k) lex_table) by (rewrite Et; apply in_elt).
  pose proof (entry_reads _ _ _ Hi Hd) as R.
  destruct Hcase as [(_ & _ & -> & ->)|[(-> & [(-> & ->)|(-> & ->)])|(-> & [(-> & ->)|(-> & ->)])]];
    try exact R; destruct R as (n & E & ->); injection E as <-; eexists; split; reflexivity.
Qed.

(** * The converse *)

(** A text some entry describes, alone: the first entry that describes it wins. *)
Lemma whole : forall w p k, In (p, k) lex_table -> PropLexer.describes p w -> w <> [] ->
  exists p' k' t1 t2, lex_table = t1 ++ (p', k') :: t2 /\ PropLexer.describes p' w /\
    (forall p2 k2, In (p2, k2) t1 -> ~ PropLexer.describes p2 w) /\
    (k' <> TK_NOT -> k' <> TK_IS -> exists t, lex w = [t] /\ tk_kind t = k' /\ tk_text t = w).
Proof.
  intros w p k Hi Hd Hw. destruct (PropLexer.C01_lex_lossless w) as (Hc & Hn & _).
  destruct (lex w) as [|t post] eqn:E; [cbn in Hc; congruence|].
  destruct (PropLexer.C09_longest_match w [] t post E) as [(_ & _ & Hno)|(p' & k' & w' & Hm & Hne & Hcase)];
    rewrite Hc in *.
  - exfalso. apply (Hno p k w Hi); [exists []; rewrite app_nil_r; reflexivity|exact Hd].
  - destruct Hm as ([r Hr] & Hd' & Hall & t1 & t2 & Et & Hearly).
    assert (L : length w <= length w').
    { apply (Hall p k w Hi); [exists []; rewrite app_nil_r; reflexivity|exact Hd]. }
    assert (r = []).
    { rewrite Hr, app_length in L. destruct r; [reflexivity|cbn in L; lia]. }
    subst r. rewrite app_nil_r in Hr. subst w'.
    exists p', k', t1, t2. do 2 (split; [assumption|]). split; [exact Hearly|].
    intros N1 N2. destruct Hcase as [(_ & _ & Ek & Ex)|[(? & _)|(? & _)]]; [|contradiction|contradiction].
    exists t. cbn [map List.concat] in Hc. rewrite Ex in Hc.
    destruct post as [|t' post]; [auto|]. exfalso.
    inversion Hn as [|? ? _ Hn']; subst. inversion Hn' as [|? ? Ht' _]; subst.
    apply (f_equal (@List.length N)) in Hc. rewrite app_length in Hc. cbn [map List.concat] in Hc.
    rewrite app_length in Hc. destruct (tk_text t'); [contradiction|cbn in Hc; lia].
Qed.

(** How the shapes begin, and what they contain. *)
Lemma head_blank : forall w, blank w -> exists c r, w = c :: r /\ (c = 32 \/ c = 9)%N.
Proof. intros w [N F]. destruct F; [contradiction|]. eauto. Qed.
Lemma head_breaks : forall w, breaks w -> exists c r, w = c :: r /\ (c = 10 \/ c = 13)%N.
Proof.
  induction 1 as [| |a b _ (c & r & -> & Hc) _ _]; [eexists _, _; split; [reflexivity|lia]..|].
  exists c, (r ++ b). auto.
Qed.
Lemma head_word : forall w, word w ->
  exists c r, w = c :: r /\ (letter c \/ c = 64 \/ c = 35 \/ c = 95 \/ c = 36)%N /\ ~ In 58%N w.
Proof.
  intros w (h & r & -> & F & H).
  assert (Hr : ~ In 58%N r).
  { intros Hi. rewrite Forall_forall in F. apply F in Hi.
    unfold name_char, letter, digit, between in Hi. lia. }
  destruct H as [(c & A & ->)|[(m & c & M & A & ->)| ->]].
  - exists c, r. split; [reflexivity|]. split; [auto|]. intros [E|E]; [|exact (Hr E)].
    unfold letter, between in A. lia.
  - exists m, (c :: r). split; [reflexivity|]. cbn in M. split; [lia|].
    intros [E|[E|E]]; [lia| |exact (Hr E)]. unfold letter, between in A. lia.
  - exists 95%N, r. split; [reflexivity|]. split; [auto|].
    intros [E|E]; [discriminate E|exact (Hr E)].
Qed.
Lemma head_component : forall w, component w -> exists r, w = 116%N :: r /\ In 58%N w.
Proof.
  intros w (p & -> & H). exists (txt "wig" ++ p). split; [reflexivity|].
  apply in_or_app. right. destruct H; left; reflexivity.
Qed.
Lemma head_number : forall w, number w -> exists c r, w = c :: r /\ digit c.
Proof.
  intros w (i & f & e & -> & [N F] & _). destruct F as [|c r Hc F]; [contradiction|].
  exists c, (r ++ f ++ e). auto.
Qed.
Lemma head_escape : forall w, escape w -> exists r, w = 38%N :: r /\ In 59%N w.
Proof.
  intros w (b & -> & _). eexists. split; [reflexivity|]. apply in_or_app. right.
  apply in_or_app. right. left. reflexivity.
Qed.

(** No text has two shapes. *)
Lemma one_shape : forall k k' w, In k shaped -> In k' shaped -> k <> TK_UNKNOWN -> k' <> TK_UNKNOWN ->
  reads k w -> reads k' w -> k = k'.
Proof.
  assert (HS : forall k w, In k shaped -> k <> TK_UNKNOWN -> reads k w -> exists c r, w = c :: r /\
    match k with
    | TK_WHITESPACE => (c = 32 \/ c = 9)%N
    | TK_LINE_BREAK => (c = 10 \/ c = 13)%N
    | TK_WORD => (between 97 122 c \/ between 65 90 c \/ c = 64 \/ c = 35 \/ c = 95 \/ c = 36)%N /\ ~ In 58%N w
    | TK_TWIG_COMPONENT_NAME => c = 116%N /\ In 58%N w
    | TK_NUMBER => between 48 57 c
    | TK_HTML_ESCAPE_CHARACTER => c = 38%N
    | _ => False
    end).
  { intros k w Hk Hu R. unfold shaped in Hk.
    repeat (destruct Hk as [<-|Hk]; cbn [reads] in R).
    - apply head_blank in R. exact R.
    - apply head_breaks in R. exact R.
    - apply head_word in R as (c & r & E & A & B). unfold letter in A. exists c, r. tauto.
    - apply head_component in R as (r & E & A). eauto.
    - apply head_number in R. exact R.
    - apply head_escape in R as (r & E & A). eauto.
    - contradiction.
    - destruct Hk. }
  intros k k' w Hk Hk' Hu Hu' R R'.
  destruct (HS _ _ Hk Hu R) as (c & r & -> & A). destruct (HS _ _ Hk' Hu' R') as (c' & r' & E & B).
  injection E as <- <-. clear HS R R'. unfold shaped in Hk, Hk'. unfold between in *.
  repeat (destruct Hk as [<-|Hk]); try destruct Hk; try contradiction;
  repeat (destruct Hk' as [<-|Hk']); try destruct Hk'; try contradiction; try reflexivity; exfalso;
  first [lia | tauto].
Qed.

(** No fixed text has a shape other than that of a word. *)
Lemma lower_fix : forall c d, (d <= 64 -> to_lower_ascii c = to_lower_ascii d -> c = d)%N.
Proof.
  intros c d Hd E. unfold to_lower_ascii, is_upper_ascii, in_range in E.
  destruct ((65 <=? c) && (c <=? 90))%N eqn:A, ((65 <=? d) && (d <=? 90))%N eqn:B;
    try apply andb_true_iff in A as [A1 A2]; try apply andb_true_iff in B as [B1 B2];
    repeat match goal with H : (_ <=? _)%N = true |- _ => apply N.leb_le in H end; lia.
Qed.

Definition lit_clear (l : string) : bool :=
  match map to_lower_ascii (txt l) with
  | [] => false
  | h :: _ =>
      let has c := existsb (N.eqb c) (map to_lower_ascii (txt l)) in
      negb (existsb (N.eqb h) [32; 9; 10; 13]%N || in_range 48 57 h
            || N.eqb h 38 && has 59%N || N.eqb h 116 && has 58%N)
  end.
Lemma table_clear : forallb (fun e => match fst e with
    | PLit l | PLitCI l => lit_clear l | PRe _ => true end) lex_table = true.
Proof. vm_compute. reflexivity. Qed.

Lemma has_lower : forall c w l, to_lower_ascii c = c -> In c w ->
  map to_lower_ascii w = map to_lower_ascii l ->
  existsb (N.eqb c) (map to_lower_ascii l) = true.
Proof.
  intros c w l Hc Hi E. rewrite <- E. apply existsb_exists. exists c. split; [|apply N.eqb_refl].
  apply in_map_iff. exists c. auto.
Qed.

Lemma lit_shape : forall l k w, lit_clear l = true -> In k shaped -> k <> TK_UNKNOWN -> k <> TK_WORD ->
  reads k w -> any_case w (txt l) -> False.
Proof.
  intros l k w F Hk Hu Hw R E. unfold any_case in E. unfold lit_clear in F.
  remember (map to_lower_ascii (txt l)) as m eqn:Em. destruct m as [|h m]; [discriminate F|].
  apply negb_true_iff in F. apply orb_false_iff in F as [F F4]. apply orb_false_iff in F as [F F3].
  apply orb_false_iff in F as [F1 F2]. rewrite Em in *. unfold shaped in Hk.
  assert (F1' : h <> 32%N /\ h <> 9%N /\ h <> 10%N /\ h <> 13%N).
  { cbn [existsb] in F1. rewrite !orb_false_iff, !N.eqb_neq in F1. tauto. }
  assert (F2' : ~ digit h).
  { intros D. unfold in_range in F2. unfold digit, between in D.
    apply andb_false_iff in F2 as [F2|F2]; apply N.leb_gt in F2; lia. }
  clear F1 F2.
  assert (Hh : forall c r, w = c :: r -> to_lower_ascii c = h).
  { intros c r ->. rewrite <- Em in E. cbn [map] in E. injection E as E _. exact E. }
  repeat (destruct Hk as [<-|Hk]; cbn [reads] in R).
  - apply head_blank in R as (c & r & E' & [-> | ->]); apply Hh in E'; vm_compute in E'; lia.
  - apply head_breaks in R as (c & r & E' & [-> | ->]); apply Hh in E'; vm_compute in E'; lia.
  - contradiction.
  - apply head_component in R as (r & E' & Hi). apply Hh in E'. change (116%N = h) in E'. subst h.
    rewrite (has_lower 58 w (txt l) eq_refl Hi E) in F4. discriminate F4.
  - apply head_number in R as (c & r & E' & D). apply Hh in E'. apply F2'.
    unfold digit, between in *. unfold to_lower_ascii, is_upper_ascii, in_range in E'.
    replace (65 <=? c)%N with false in E' by (symmetry; apply N.leb_gt; lia). cbn in E'. lia.
  - apply head_escape in R as (r & E' & Hi). apply Hh in E'. change (38%N = h) in E'. subst h.
    rewrite (has_lower 59 w (txt l) eq_refl Hi E) in F3. discriminate F3.
  - contradiction.
  - destruct Hk.
Qed.

(** The kinds of fixed text, and how the text of each is read alone. *)
Definition fixed_ok (k : kind) : bool :=
  match kind_display k with
  | Some d => match lex (txt d) with
              | [t] => kind_eqb (tk_kind t) k && text_eqb (tk_text t) (txt d)
              | _ => false
              end
  | None => false
  end.
Lemma table_fixed : forallb (fun e => match fst e with PRe _ => true | _ => fixed_ok (snd e) end) lex_table
  && fixed_ok TK_NOT_IN && fixed_ok TK_IS_NOT = true.
Proof. vm_compute. reflexivity. Qed.

Lemma fixed_reads : forall k name, fixed_ok k = true -> kind_display k = Some name ->
  exists t, lex (txt name) = [t] /\ tk_kind t = k /\ tk_text t = txt name.
Proof.
  intros k name F E. unfold fixed_ok in F. rewrite E in F.
  destruct (lex (txt name)) as [|t [|]]; [discriminate F| |discriminate F].
  apply andb_true_iff in F as [A B]. apply kind_eqb_eq in A. apply text_eqb_eq in B. eauto.
Qed.

Lemma occurs_entry : forall k, occurs k -> k = TK_UNKNOWN \/ k = TK_NOT_IN \/ k = TK_IS_NOT \/
  exists p, In (p, k) lex_table.
Proof.
  intros k (src & t & H & <-). apply in_split in H as (pre & post & H).
  destruct (PropLexer.C09_longest_match _ _ _ _ H)
    as [(-> & E & _)|(p & k & w & Hm & Hne & Hcase)]; [auto|].
  destruct Hm as (_ & Hd & _ & t1 & t2 & Et & _).
  assert (Hi : In (p, k) lex_table) by (rewrite Et; apply in_elt).
  destruct Hcase as [(_ & _ & -> & _)|[(-> & [(-> & _)|(-> & _)])|(-> & [(-> & _)|(-> & _)])]]; eauto 6.
Qed.

Definition ci : list kind :=
  [TK_DOCTYPE; TK_TRUE; TK_FALSE; TK_NONE; TK_NULL; TK_LUDTWIG_IGNORE; TK_LUDTWIG_IGNORE_FILE].

(** A fixed text read up to case is the text of one kind only. *)
Lemma ci_entries : forall k, In k ci -> exists name p, kind_display k = Some name /\
  p = PLitCI name /\ In (p, k) lex_table /\
  forallb (fun e => match fst e with
    | PLit l | PLitCI l => negb (text_eqb (map to_lower_ascii (txt l)) (map to_lower_ascii (txt name)))
                           || kind_eqb (snd e) k
    | PRe _ => true end) lex_table = true.
Proof.
  assert (F : forall k p name, kind_display k = Some name -> p = PLitCI name ->
    find (fun e => kind_eqb (snd e) k) lex_table = Some (p, k) -> In (p, k) lex_table).
  { intros k p name _ _ H. apply find_some in H as [H _]. exact H. }
  intros k Hk. unfold ci in Hk.
  repeat (destruct Hk as [<-|Hk];
    [eexists _, _; split; [reflexivity|]; split; [reflexivity|]; split;
      [eapply F; [reflexivity|reflexivity|vm_compute; reflexivity]|vm_compute; reflexivity]|]).
  destruct Hk.
Qed.

(** What [reads] says of the kinds that are no shapes. *)
Lemma reads_fixed : forall k w, ~ In k shaped -> reads k w ->
  In k ci /\ (exists name, kind_display k = Some name /\ any_case w (txt name)) \/
  ~ In k ci /\ (exists name, kind_display k = Some name /\ w = txt name).
Proof.
  intros k w Hk R. unfold shaped in Hk.
  destruct (in_dec kind_eq_dec k ci) as [Hc|Hc].
  - left. split; [exact Hc|]. unfold ci in Hc.
    repeat (destruct Hc as [<-|Hc]; [exact R|]). destruct Hc.
  - right. split; [exact Hc|].
    assert (G : forall l, existsb (kind_eqb k) l = true -> In k l).
    { intros l H. apply existsb_exists in H as (x & Hx & E). apply kind_eqb_eq in E. subst. exact Hx. }
    destruct k; try exact R; exfalso;
      first [apply Hc; apply G; vm_compute; reflexivity|apply Hk; apply G; vm_compute; reflexivity].
Qed.

Lemma reads_nonempty : forall k w, k <> TK_UNKNOWN -> In k shaped -> reads k w -> w <> [].
Proof.
  intros k w Hu Hk R ->. unfold shaped in Hk.
  repeat (destruct Hk as [<-|Hk]; cbn [reads] in R).
  - destruct R; contradiction.
  - apply head_breaks in R as (? & ? & E & _). discriminate E.
  - apply head_word in R as (? & ? & E & _). discriminate E.
  - apply head_component in R as (? & E & _). discriminate E.
  - apply head_number in R as (? & ? & E & _). discriminate E.
  - apply head_escape in R as (? & E & _). discriminate E.
  - contradiction.
  - destruct Hk.
Qed.

Lemma shape_entry : forall k w, In k shaped -> k <> TK_UNKNOWN -> reads k w ->
  exists p, In (p, k) lex_table /\ PropLexer.describes p w.
Proof.
  intros k w Hk Hu R.
  assert (F : forall p, find (fun e => is_re (fst e) && kind_eqb (snd e) k) lex_table = Some (p, k) ->
    In (p, k) lex_table).
  { intros p H. apply find_some in H as [H _]. exact H. }
  unfold shaped in Hk.
  repeat (destruct Hk as [<-|Hk]; cbn [reads] in R).
  - exists (PRe re_ws). split; [apply F; vm_compute; reflexivity|apply ws_shape; exact R].
  - exists (PRe re_lb). split; [apply F; vm_compute; reflexivity|apply lb_shape; exact R].
  - exists (PRe re_word). split; [apply F; vm_compute; reflexivity|apply word_shape; exact R].
  - exists (PRe re_component). split; [apply F; vm_compute; reflexivity|apply component_shape; exact R].
  - exists (PRe re_number). split; [apply F; vm_compute; reflexivity|apply number_shape; exact R].
  - exists (PRe re_escape). split; [apply F; vm_compute; reflexivity|apply escape_shape; exact R].
  - contradiction.
  - destruct Hk.
Qed.

Lemma lit_any_case : forall p k w, In (p, k) lex_table -> is_re p = false -> PropLexer.describes p w ->
  exists l, any_case w (txt l) /\ lit_clear l = true /\ (p = PLit l \/ p = PLitCI l).
Proof.
  intros p k w Hi Hp Hd. pose proof table_clear as F. rewrite forallb_forall in F.
  specialize (F _ Hi). cbn [fst] in F. destruct p as [l|l|r]; [| |discriminate Hp]; exists l; cbn in Hd.
  - subst w. split; [reflexivity|]. auto.
  - split; [exact Hd|]. auto.
Qed.

(** ** C70, second half: what reads as a token, alone, is that token

    The one exception are words: a word that is the fixed text of another token is that
    token. *)
Theorem C70_text_reads_as_token : forall k w, occurs k -> k <> TK_UNKNOWN -> reads k w ->
  (k = TK_WORD -> forall k', occurs k' -> ~ In k' shaped -> ~ reads k' w) ->
  exists t, lex w = [t] /\ tk_kind t = k /\ tk_text t = w.
Proof.
  intros k w Ho Hu R Hword.
  destruct (in_dec kind_eq_dec k shaped) as [Hs|Hs].
  - (* a shape *)
    destruct (shape_entry _ _ Hs Hu R) as (p & Hi & Hd).
    destruct (whole w p k Hi Hd (reads_nonempty _ _ Hu Hs R)) as (p' & k' & t1 & t2 & Et & Hd' & _ & Hlex).
    assert (Hi' : In (p', k') lex_table) by (rewrite Et; apply in_elt).
    destruct (is_re p') eqn:Ep.
    + assert (Hs' : In k' shaped /\ k' <> TK_UNKNOWN /\ k' <> TK_NOT /\ k' <> TK_IS).
      { destruct p' as [l|l|r]; [discriminate Ep..|]. apply table_re in Hi'. unfold shaped.
        repeat (destruct Hi' as [Hi'|Hi'];
          [injection Hi' as _ <-; split; [cbn [In]; tauto|repeat split; discriminate]|]). destruct Hi'. }
      destruct Hs' as (Hs' & Hu' & N1 & N2).
      rewrite (one_shape k k' w Hs Hs' Hu Hu' R (entry_reads _ _ _ Hi' Hd')). auto.
    + exfalso. destruct (lit_any_case _ _ _ Hi' Ep Hd') as (l & El & Fl & Hl).
      destruct (kind_eq_dec k TK_WORD) as [->|Nw].
      * pose proof table_fixed as F. apply andb_true_iff in F as [F _]. apply andb_true_iff in F as [F _].
        rewrite forallb_forall in F. specialize (F _ Hi'). cbn [fst snd] in F.
        assert (Fk : fixed_ok k' = true) by (destruct p'; [exact F|exact F|discriminate Ep]).
        assert (Ns : ~ In k' shaped).
        { assert (G : forallb (fun e => is_re (fst e) || negb (existsb (kind_eqb (snd e)) shaped)) lex_table = true)
            by (vm_compute; reflexivity).
          rewrite forallb_forall in G. specialize (G _ Hi'). cbn [fst snd] in G. rewrite Ep in G.
          apply negb_true_iff in G. intros H. rewrite <- not_true_iff_false in G. apply G.
          apply existsb_exists. exists k'. split; [exact H|apply kind_eqb_refl]. }
        apply (Hword eq_refl k'); [|exact Ns|exact (entry_reads _ _ _ Hi' Hd')].
        destruct (kind_display k') as [d|] eqn:Ed; [|unfold fixed_ok in Fk; rewrite Ed in Fk; discriminate Fk].
        destruct (fixed_reads _ _ Fk Ed) as (t & Elx & Ek & _).
        exists (txt d), t. rewrite Elx. split; [left; reflexivity|exact Ek].
      * exact (lit_shape l k w Fl Hs Hu Nw R El).
  - destruct (reads_fixed _ _ Hs R) as [(Hc & name & En & Ew)|(Hc & name & En & ->)].
    + (* up to case *)
      destruct (ci_entries k Hc) as (name' & p & En' & -> & Hi & F).
      rewrite En in En'. injection En' as <-.
      assert (Hne : w <> []).
      { intros ->. destruct name as [|a name]; [|discriminate Ew].
        unfold ci in Hc. repeat (destruct Hc as [<-|Hc]; [discriminate En|]). destruct Hc. }
      destruct (whole w _ k Hi Ew Hne) as (p' & k' & t1 & t2 & Et & Hd' & Hearly & Hlex).
      assert (Hi' : In (p', k') lex_table) by (rewrite Et; apply in_elt).
      destruct (is_re p') eqn:Ep.
      * exfalso. rewrite Et in Hi. apply in_app_or in Hi as [Hi|[Hi|Hi]].
        -- exact (Hearly _ _ Hi Ew).
        -- injection Hi as -> _. discriminate Ep.
        -- pose proof table_lits_first as L. rewrite Et in L.
           pose proof (lits_first_after _ _ _ _ L Ep _ Hi) as X. discriminate X.
      * destruct (lit_any_case _ _ _ Hi' Ep Hd') as (l & El & _ & Hl).
        rewrite forallb_forall in F. specialize (F _ Hi'). cbn [fst snd] in F.
        assert (Fl : negb (text_eqb (map to_lower_ascii (txt l)) (map to_lower_ascii (txt name)))
                     || kind_eqb k' k = true) by (destruct Hl as [-> | ->]; exact F).
        unfold any_case in *. rewrite <- El, Ew in Fl.
        apply orb_true_iff in Fl as [Fl|Fl].
        -- apply negb_true_iff in Fl. rewrite <- not_true_iff_false in Fl. exfalso. apply Fl.
           apply text_eqb_eq. reflexivity.
        -- apply kind_eqb_eq in Fl. subst k'. apply Hlex; intros ->; unfold ci in Hc;
             repeat (destruct Hc as [Hc|Hc]; [discriminate Hc|]); destruct Hc.
    + (* exactly *)
      apply fixed_reads; [|exact En]. pose proof table_fixed as F.
      apply andb_true_iff in F as [F F3]. apply andb_true_iff in F as [F1 F2].
      destruct (occurs_entry _ Ho) as [->|[->|[->|(p & Hi)]]]; [contradiction|exact F2|exact F3|].
      rewrite forallb_forall in F1. specialize (F1 _ Hi). cbn [fst snd] in F1.
      destruct p as [l|l|r]; [exact F1|exact F1|]. exfalso. apply Hs. apply table_re in Hi.
      unfold shaped. repeat (destruct Hi as [Hi|Hi]; [injection Hi as _ <-; cbn [In]; tauto|]). destruct Hi.
Qed.

(** Non-trivial cases: tokens of shapes and of fixed text in one source, a keyword typed
    in capitals, a number with fraction and exponent, a word with a sign in front. *)
Example C70_case_read :
  map (fun t => (tk_kind t, tk_text t)) (lex (txt "<!doctype &#xA; 1.5e+3 TRUE @on twig:a:b is not"))
  = [(TK_LESS_THAN_EXCLAMATION_MARK, txt "<!"); (TK_DOCTYPE, txt "doctype"); (TK_WHITESPACE, txt " ");
     (TK_HTML_ESCAPE_CHARACTER, txt "&#xA;"); (TK_WHITESPACE, txt " ");
     (TK_NUMBER, txt "1.5e+3"); (TK_WHITESPACE, txt " "); (TK_TRUE, txt "TRUE"); (TK_WHITESPACE, txt " ");
     (TK_WORD, txt "@on"); (TK_WHITESPACE, txt " "); (TK_TWIG_COMPONENT_NAME, txt "twig:a:b");
     (TK_WHITESPACE, txt " "); (TK_IS_NOT, txt "is not")].
Proof. vm_compute. reflexivity. Qed.
Example C70_case_number : occurs TK_NUMBER /\ reads TK_NUMBER (txt "1.5e+3").
Proof.
  assert (L : lex (txt "1") = [mkTok TK_NUMBER (txt "1") 0 1]) by (vm_compute; reflexivity).
  split; [exists (txt "1"), (mkTok TK_NUMBER (txt "1") 0 1); rewrite L; split; [left|]; reflexivity|].
  clear L.
  exists (txt "1"), (txt ".5"), (txt "e+3"). split; [reflexivity|].
  assert (D : forall c, (48 <= c <= 57)%N -> some digit [c]).
  { intros c H. split; [discriminate|]. constructor; [exact H|constructor]. }
  split; [apply D; vm_compute; split; discriminate|]. split; right.
  - exists (txt "5"). split; [apply D; vm_compute; split; discriminate|reflexivity].
  - exists 101%N, 43%N, (txt "3"). cbn [In txt]. split; [left; reflexivity|]. split; [left; reflexivity|].
    split; [apply D; vm_compute; split; discriminate|reflexivity].
Qed.
(** [e] without a sign is no exponent, a second point no fraction. *)
Example C70_case_no_number :
  map tk_text (lex (txt "1e5")) = [txt "1"; txt "e5"] /\
  map tk_text (lex (txt "1.2.3")) = [txt "1.2"; txt "."; txt "3"].
Proof. vm_compute. split; reflexivity. Qed.

Print Assumptions C70_tokens_read_as_called.
Print Assumptions C70_text_reads_as_token.
