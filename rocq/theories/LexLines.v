(** Which tokens the lines of a source become. *)
From Coq Require Import NArith String Bool Arith Lia List.
Import ListNotations.
From Verif Require Import Text Kind Regex Lexer LexerProofs PropLexer.
Local Notation length := List.length (only parsing).
Local Open Scope list_scope.

Definition CR : N := 13.
Definition LF : N := 10.
(** Spaces and tabs. *)
Definition spaces (w : text) : Prop := Forall (fun c => c = 32%N \/ c = 9%N) w.

(** * Characters of patterns *)
Fixpoint mentions (c : N) (r : regex) : bool :=
  match r with
  | REmpty | REps => false
  | RClass cl => in_class cl c
  | RSeq a b | RAlt a b => mentions c a || mentions c b
  | RStar a => mentions c a
  end.
Lemma mentions_spec c : forall r s, rmatch r s -> In c s -> mentions c r = true.
Proof.
  induction 1; intros I; cbn [mentions].
  - destruct I.
  - destruct I as [<-|[]]. assumption.
  - rewrite orb_true_iff. apply in_app_iff in I as [I|I]; auto.
  - rewrite orb_true_iff. auto.
  - rewrite orb_true_iff. auto.
  - destruct I.
  - apply in_app_iff in I as [I|I]; auto.
Qed.
Definition pattern_mentions (c : N) (p : pattern) : bool :=
  match p with
  | PLit l => existsb (N.eqb c) (txt l)
  | PLitCI l => existsb (N.eqb (to_lower_ascii c)) (map to_lower_ascii (txt l))
  | PRe r => mentions c r
  end.
Lemma pattern_mentions_spec c p w : describes p w -> In c w -> pattern_mentions c p = true.
Proof.
  destruct p as [l|l|r]; cbn [describes pattern_mentions].
  - intros -> I. apply existsb_exists. exists c. split; [exact I|apply N.eqb_refl].
  - intros E I. apply existsb_exists. exists (to_lower_ascii c). split; [|apply N.eqb_refl]. rewrite <- E. now apply in_map.
  - apply mentions_spec.
Qed.
(** Patterns that can start with a character. *)
Definition pattern_starts (c : N) (p : pattern) : bool :=
  match p with
  | PLit l => match txt l with x :: _ => N.eqb x c | [] => false end
  | PLitCI l => match map to_lower_ascii (txt l) with x :: _ => N.eqb x (to_lower_ascii c) | [] => false end
  | PRe r => match deriv c r with REmpty => false | _ => true end
  end.
Lemma pattern_starts_spec c p w : describes p (c :: w) -> pattern_starts c p = true.
Proof.
  destruct p as [l|l|r]; cbn [describes pattern_starts].
  - intros <-. apply N.eqb_refl.
  - intros <-. cbn [map]. apply N.eqb_refl.
  - intros H. apply deriv_spec in H. destruct (deriv c r); try reflexivity. now apply rmatch_empty in H.
Qed.

Lemma table_breaks : forallb (fun e => negb (pattern_mentions LF (fst e) || pattern_mentions CR (fst e)) || kind_eqb (snd e) TK_LINE_BREAK) lex_table = true.
Proof. vm_compute. reflexivity. Qed.
Lemma table_spaces : forallb (fun e => negb (pattern_starts 32 (fst e) || pattern_starts 9 (fst e)) || kind_eqb (snd e) TK_WHITESPACE) lex_table = true.
Proof. vm_compute. reflexivity. Qed.
Lemma entry_breaks c p k w : c = LF \/ c = CR -> In (p, k) lex_table -> describes p w -> In c w -> k = TK_LINE_BREAK.
Proof.
  intros C I D J. pose proof table_breaks as T. rewrite forallb_forall in T. specialize (T _ I). cbn [fst snd] in T.
  pose proof (pattern_mentions_spec c p w D J) as M.
  apply orb_true_iff in T as [T|T]; [|now apply kind_eqb_eq in T]. apply negb_true_iff, orb_false_iff in T as [T1 T2].
  destruct C as [-> | ->]; congruence.
Qed.
Lemma entry_spaces c p k w : c = 32%N \/ c = 9%N -> In (p, k) lex_table -> describes p (c :: w) -> k = TK_WHITESPACE.
Proof.
  intros C I D. pose proof table_spaces as T. rewrite forallb_forall in T. specialize (T _ I). cbn [fst snd] in T.
  pose proof (pattern_starts_spec c p w D) as M.
  apply orb_true_iff in T as [T|T]; [|now apply kind_eqb_eq in T]. apply negb_true_iff, orb_false_iff in T as [T1 T2].
  destruct C as [-> | ->]; congruence.
Qed.
(** The only pattern of each of the two kinds. *)
Lemma table_ws_entry : nth_error lex_table (length lex_table - 6) = Some (PRe re_ws, TK_WHITESPACE).
Proof. vm_compute. reflexivity. Qed.
Lemma table_lb_entry : nth_error lex_table (length lex_table - 5) = Some (PRe re_lb, TK_LINE_BREAK).
Proof. vm_compute. reflexivity. Qed.
Lemma in_ws : In (PRe re_ws, TK_WHITESPACE) lex_table.
Proof. exact (nth_error_In _ _ table_ws_entry). Qed.
Lemma in_lb : In (PRe re_lb, TK_LINE_BREAK) lex_table.
Proof. exact (nth_error_In _ _ table_lb_entry). Qed.
Lemma unique_kind k : forall l1 l2 (p q : pattern) l, count_occ kind_eq_dec (map snd l) k = 1 ->
  l = l1 ++ (p, k) :: l2 -> In (q, k) l -> q = p.
Proof.
  intros l1 l2 p q l C -> I. rewrite map_app, count_occ_app in C. cbn [map snd] in C. rewrite count_occ_cons_eq in C by reflexivity.
  assert (N : forall l', count_occ kind_eq_dec (map snd l') k = 0 -> ~ In (q, k) l').
  { intros l' Z X. apply (in_map snd) in X. cbn [snd] in X. apply (count_occ_In kind_eq_dec) in X. lia. }
  apply in_app_iff in I as [I|[I|I]]; [|injection I; auto|]; exfalso; revert I; apply N; lia.
Qed.
Lemma only_ws p : In (p, TK_WHITESPACE) lex_table -> p = PRe re_ws.
Proof.
  intros I. destruct (in_split _ _ in_ws) as (l1 & l2 & E). eapply unique_kind; [|exact E|exact I]. vm_compute. reflexivity.
Qed.
Lemma only_lb p : In (p, TK_LINE_BREAK) lex_table -> p = PRe re_lb.
Proof.
  intros I. destruct (in_split _ _ in_lb) as (l1 & l2 & E). eapply unique_kind; [|exact E|exact I]. vm_compute. reflexivity.
Qed.

(** * What the two patterns describe *)
Lemma ws_spaces w : rmatch re_ws w <-> w <> [] /\ spaces w.
Proof.
  unfold re_ws, RPlus. assert (In1 : forall c, in_class [(32, 32); (9, 9)]%N c = true <-> (c = 32 \/ c = 9)%N).
  { intros c. unfold in_class, in_range. cbn [existsb fst snd]. rewrite !orb_true_iff, !andb_true_iff, !N.leb_le. split; [intros [X|[X|X]]; [left|right|discriminate X]; lia|].
    intros [-> | ->]; lia. }
  split.
  - intros H. apply rseq_inv in H as (a & b & -> & A & B). inversion A; subst. apply star_class in B. cbn [app]. split; [discriminate|].
    constructor; [now apply In1|]. unfold spaces. rewrite forallb_forall in B. apply Forall_forall. intros x X. apply In1. now apply B.
  - intros [N S]. destruct w as [|c w]; [congruence|]. inversion S as [|? ? Hc Hw]; subst. change (c :: w) with ([c] ++ w). constructor.
    + constructor. now apply In1.
    + apply star_class. apply forallb_forall. intros x X. apply In1. unfold spaces in Hw. rewrite Forall_forall in Hw. now apply Hw.
Qed.
Lemma lb_parts : forall s, rmatch re_lb s ->
  Forall (fun c => c = LF \/ c = CR) s /\ (exists a, s = a ++ [LF]).
Proof.
  assert (One : forall x, rmatch (RAlt (RChar 10) (RSeq (RChar 13) (RChar 10))) x -> x = [LF] \/ x = [CR; LF]).
  { intros x H. inversion H as [| | |? ? ? H1|? ? ? H1| |]; subst.
    - left. inversion H1; subst. unfold in_class, in_range in *. cbn [existsb fst snd] in *. rewrite orb_false_r, andb_true_iff, !N.leb_le in *. f_equal. unfold LF. lia.
    - right. apply rseq_inv in H1 as (a & b & -> & A & B). inversion A; subst. inversion B; subst. unfold in_class, in_range in *. cbn [existsb fst snd] in *.
      rewrite orb_false_r, andb_true_iff, !N.leb_le in *. cbn [app]. unfold LF, CR. f_equal; [lia|]. f_equal. lia. }
  assert (Star : forall r x, rmatch r x -> r = RStar (RAlt (RChar 10) (RSeq (RChar 13) (RChar 10))) ->
    Forall (fun c => c = LF \/ c = CR) x /\ (x = [] \/ exists a, x = a ++ [LF])).
  { induction 1; intros E; try discriminate E.
    - split; [constructor|now left].
    - injection E as ->. destruct (IHrmatch2 eq_refl) as [F T]. assert (Fs : Forall (fun c => c = LF \/ c = CR) s /\ exists a, s = a ++ [LF]).
      { destruct (One s) as [-> | ->]; [assumption| |]; (split; [repeat constructor; auto|]); [now exists []|now exists [CR]]. }
      destruct Fs as [F1 (a & ->)]. split; [apply Forall_app; auto|]. right. destruct T as [-> |(b & ->)]; [exists a; now rewrite app_nil_r|exists ((a ++ [LF]) ++ b); now rewrite app_assoc]. }
  unfold re_lb, RPlus. intros s H. apply rseq_inv in H as (a & b & -> & A & B). destruct (Star _ _ B eq_refl) as [F T].
  assert (Fs : Forall (fun c => c = LF \/ c = CR) a /\ exists x, a = x ++ [LF]).
  { destruct (One a A) as [-> | ->]; (split; [repeat constructor; auto|]); [now exists []|now exists [CR]]. }
  destruct Fs as [F1 (x & ->)]. split; [apply Forall_app; auto|]. destruct T as [-> |(y & ->)]; [exists x; now rewrite app_nil_r|exists ((x ++ [LF]) ++ y); now rewrite app_assoc].
Qed.
Lemma lb_one : rmatch re_lb [LF] /\ rmatch re_lb [CR; LF].
Proof.
  unfold re_lb, RPlus. split.
  - change [LF] with ([LF] ++ []). constructor; [|constructor]. apply MAltL. constructor. reflexivity.
  - change [CR; LF] with ([CR; LF] ++ []). constructor; [|constructor]. apply MAltR. change [CR; LF] with ([CR] ++ [LF]).
    constructor; constructor; reflexivity.
Qed.

(** * Tokens *)
Lemma token_at : forall ts off e pre c post, adjacent off ts e -> List.concat (map tk_text ts) = pre ++ c :: post ->
  exists t1 t t2 a b, ts = t1 ++ t :: t2 /\ tk_text t = a ++ c :: b /\ pre = List.concat (map tk_text t1) ++ a /\
    post = b ++ List.concat (map tk_text t2) /\ tk_start t + blen a = off + blen pre.
Proof.
  induction ts as [|t ts IH]; intros off e pre c post A E; [destruct pre; discriminate E|].
  inversion A as [|? ? ? ? A1 A2 A3 A4]; subst. cbn [map List.concat] in E.
  assert (G : (exists u, pre = tk_text t ++ u /\ List.concat (map tk_text ts) = u ++ c :: post) \/
              (exists a b, tk_text t = a ++ c :: b /\ pre = a /\ post = b ++ List.concat (map tk_text ts))).
  { clear - E. revert pre E. generalize (List.concat (map tk_text ts)) as s. induction (tk_text t) as [|x w IHw]; intros s pre E.
    - left. exists pre. auto.
    - destruct pre as [|y pre]; cbn [app] in E; injection E as -> E.
      + right. exists [], w. auto.
      + destruct (IHw s pre E) as [(u & -> & U)|(a & b & -> & <- & ->)]; [left; exists u; auto|right; exists (y :: pre), b; auto]. }
  destruct G as [(u & -> & U)|(a & b & T & -> & ->)].
  - destruct (IH _ _ _ _ _ A4 U) as (t1 & t' & t2 & a & b & -> & B1 & -> & B3 & B4). exists (t :: t1), t', t2, a, b.
    split; [reflexivity|]. split; [exact B1|]. split; [cbn [map List.concat]; now rewrite <- app_assoc|]. split; [exact B3|].
    rewrite !blen_app in *. lia.
  - exists [], t, ts, a, b. auto.
Qed.
Lemma src_token_at src pre c post : src = pre ++ c :: post ->
  exists t1 t t2 a b, lex src = t1 ++ t :: t2 /\ tk_text t = a ++ c :: b /\ pre = List.concat (map tk_text t1) ++ a /\
    post = b ++ List.concat (map tk_text t2) /\ tk_start t + blen a = blen pre.
Proof.
  intros E. destruct (C01_lex_lossless src) as (T & _ & A). rewrite E in T at 2. exact (token_at _ _ _ _ _ _ A T).
Qed.

(** Two-word operators have no line breaks in them. *)
Lemma token_described src t1 t t2 : lex src = t1 ++ t :: t2 ->
  (tk_kind t = TK_UNKNOWN /\ length (tk_text t) = 1 /\
     forall p k w, In (p, k) lex_table -> prefix w (List.concat (map tk_text (t :: t2))) -> ~ describes p w) \/
  (exists p k w u, munch (List.concat (map tk_text (t :: t2))) p k w /\ w <> [] /\ In (p, k) lex_table /\ tk_text t = w ++ u /\
     (u = [] /\ tk_kind t = k \/ (k = TK_NOT \/ k = TK_IS) /\ (u = txt " in" \/ u = txt " not") /\ is_trivia (tk_kind t) = false)).
Proof.
  intros H. destruct (C09_longest_match _ _ _ _ H) as [U|(p & k & w & M & N & C)]; [now left|]. right. exists p, k, w.
  assert (I : In (p, k) lex_table). { destruct M as (_ & _ & _ & l1 & l2 & -> & _). apply in_elt. }
  destruct C as [(_ & _ & C1 & C2)|[(-> & [[C1 C2]|[C1 C2]])|(-> & [[C1 C2]|[C1 C2]])]]; [exists []|exists []|exists (txt " in")|exists []|exists (txt " not")];
    (split; [exact M|]); (split; [exact N|]); (split; [exact I|]); rewrite ?app_nil_r; (split; [exact C2|]); rewrite C1; auto.
Qed.

Lemma lf_token src t1 t t2 c : (c = LF \/ c = CR) -> lex src = t1 ++ t :: t2 -> In c (tk_text t) ->
  (tk_kind t = TK_LINE_BREAK /\ rmatch re_lb (tk_text t)) \/
  (tk_text t = [c] /\ forall p k w, In (p, k) lex_table -> prefix w (List.concat (map tk_text (t :: t2))) -> ~ describes p w).
Proof.
  intros Hc H I. destruct (token_described _ _ _ _ H) as [(_ & L & U)|(p & k & w & u & M & N & J & E & C)].
  - right. split; [|exact U]. destruct (tk_text t) as [|x [|? ?]]; try discriminate L. now destruct I as [->|[]].
  - left. assert (Iw : In c w).
    { rewrite E in I. apply in_app_iff in I as [I|I]; [exact I|]. exfalso.
      destruct C as [[-> _]|(_ & [-> | ->] & _)]; [destruct I| |]; destruct Hc as [-> | ->]; vm_compute in I; intuition discriminate. }
    destruct M as (_ & D & _). pose proof (entry_breaks c p k w Hc J D Iw) as ->.
    destruct C as [[-> K]|([X|X] & _)]; [|discriminate X|discriminate X]. split; [exact K|]. rewrite E, app_nil_r.
    pose proof (only_lb p J) as ->. exact D.
Qed.
(** A token that starts with a line break. *)
Lemma break_token src t1 t t2 nl rest : (nl = [LF] \/ nl = [CR; LF]) -> lex src = t1 ++ t :: t2 ->
  List.concat (map tk_text (t :: t2)) = nl ++ rest -> tk_text t <> [] -> tk_kind t = TK_LINE_BREAK /\ rmatch re_lb (tk_text t).
Proof.
  intros Hn H E N. destruct (tk_text t) as [|c w] eqn:T; [congruence|].
  assert (C : c = LF \/ c = CR).
  { cbn [map List.concat] in E. rewrite T in E. destruct Hn as [-> | ->]; cbn [app] in E; injection E as -> _; auto. }
  destruct (lf_token src t1 t t2 c C H) as [X|[_ X]]; [rewrite T; now left|now rewrite T in X|].
  exfalso. apply (X (PRe re_lb) TK_LINE_BREAK nl in_lb); [now exists rest|]. cbn [describes]. destruct Hn as [-> | ->]; apply lb_one.
Qed.
(** A token that starts with a space or a tab takes all of them. *)
Lemma space_token src t1 t t2 w rest : lex src = t1 ++ t :: t2 -> List.concat (map tk_text (t :: t2)) = w ++ rest ->
  w <> [] -> spaces w -> (forall c r, rest = c :: r -> ~ (c = 32 \/ c = 9)%N) -> tk_text t <> [] ->
  tk_kind t = TK_WHITESPACE /\ tk_text t = w.
Proof.
  intros H E N S R Nt. destruct w as [|c w]; [congruence|]. assert (Sc : c = 32%N \/ c = 9%N) by now inversion S.
  assert (P : prefix (c :: w) (List.concat (map tk_text (t :: t2)))) by (exists rest; exact E).
  assert (W : rmatch re_ws (c :: w)) by (apply ws_spaces; split; [discriminate|exact S]).
  destruct (token_described _ _ _ _ H) as [(_ & _ & U)|(p & k & v & u & M & Nv & J & Ev & C)].
  - exfalso. exact (U (PRe re_ws) _ _ in_ws P W).
  - destruct M as ((q & Pq) & D & Lg & _). destruct v as [|d v]; [congruence|].
    assert (d = c) as -> by (rewrite E in Pq; cbn [app] in Pq; injection Pq; auto).
    pose proof (entry_spaces c p k v Sc J D) as ->. pose proof (only_ws p J) as ->.
    destruct C as [[-> K]|([X|X] & _)]; [|discriminate X|discriminate X]. rewrite app_nil_r in Ev. split; [exact K|]. rewrite Ev.
    specialize (Lg (PRe re_ws) _ _ in_ws P W). cbn [describes] in D. apply ws_spaces in D as [_ D].
    rewrite E in Pq. clear - Pq Lg D R. remember (c :: v) as V. remember (c :: w) as W. clear HeqV HeqW c w v.
    revert V Pq Lg D. induction W as [|x W IH]; intros V Pq Lg D.
    + destruct V as [|y V]; [reflexivity|]. exfalso. cbn [app] in Pq. apply (R y (V ++ q) Pq). now inversion D.
    + destruct V as [|y V]; [cbn in Lg; lia|]. cbn [app] in Pq. injection Pq as -> Pq. f_equal. apply IH; [exact Pq|cbn [List.length] in Lg; lia|now inversion D].
Qed.

(** * Lines *)

(** A Windows line break of the source is inside of one token. *)
Lemma crlf_token src pre post : src = pre ++ [CR; LF] ++ post ->
  exists t1 t t2 a b, lex src = t1 ++ t :: t2 /\ tk_kind t = TK_LINE_BREAK /\ tk_text t = a ++ [CR; LF] ++ b /\ tk_start t + blen a = blen pre.
Proof.
  intros E. destruct (src_token_at src pre CR (LF :: post) E) as (t1 & t & t2 & a & b & L & T & P & Q & O).
  exists t1, t, t2, a. destruct b as [|x b].
  - exfalso. cbn [app] in Q. destruct (lf_token src t1 t t2 CR (or_intror eq_refl) L) as [[_ X]|[X U]].
    + rewrite T. apply in_elt.
    + rewrite T in X. apply lb_parts in X as [_ (y & X)]. apply app_inj_tail in X as [_ X]. discriminate X.
    + apply (U (PRe re_lb) TK_LINE_BREAK [CR; LF] in_lb); [|apply lb_one]. exists post. cbn [map List.concat]. rewrite X, <- Q. reflexivity.
  - cbn [app] in Q. injection Q as <- Q. exists b. split; [exact L|]. split; [|split; [exact T|exact O]].
    destruct (lf_token src t1 t t2 LF (or_introl eq_refl) L) as [[X _]|[X _]]; [|exact X|].
    + rewrite T. apply in_app_iff. right. right. now left.
    + rewrite T in X. destruct a as [|? [|? ?]]; discriminate X.
Qed.

(** A line of nothing but spaces and tabs is a token between two line breaks. *)
Lemma blank_line_tokens src pre w nl post : src = pre ++ LF :: w ++ nl ++ post -> w <> [] -> spaces w -> (nl = [LF] \/ nl = [CR; LF]) ->
  exists t1 x y z t2, lex src = t1 ++ x :: y :: z :: t2 /\ tk_kind x = TK_LINE_BREAK /\ tk_kind y = TK_WHITESPACE /\ tk_kind z = TK_LINE_BREAK /\
    tk_text y = w /\ tk_start y = blen pre + 1.
Proof.
  intros E N S Hn. destruct (src_token_at src pre LF _ E) as (t1 & x & t2 & a & b & L & T & P & Q & O).
  destruct (C01_lex_lossless src) as (_ & Ne & A). rewrite Forall_forall in Ne. rewrite L in Ne, A.
  assert (X : tk_kind x = TK_LINE_BREAK /\ rmatch re_lb (tk_text x)).
  { destruct (lf_token src t1 x t2 LF (or_introl eq_refl) L) as [X|[X U]]; [rewrite T; apply in_elt|exact X|]. exfalso.
    rewrite T in X. destruct a as [|? [|? ?]]; try discriminate X. cbn [app] in X. injection X as ->.
    apply (U (PRe re_lb) TK_LINE_BREAK [LF] in_lb); [|apply lb_one]. exists (List.concat (map tk_text t2)). cbn [map List.concat]. now rewrite T. }
  destruct X as [Kx Rx]. destruct w as [|c w]; [congruence|]. assert (Sc : c = 32%N \/ c = 9%N) by now inversion S.
  assert (b = []) as ->.
  { destruct b as [|d b]; [reflexivity|]. exfalso. cbn [app] in Q. injection Q as <- _. apply lb_parts in Rx as [F _]. rewrite Forall_forall in F.
    destruct (F c) as [F1|F1]; [rewrite T; apply in_app_iff; right; right; now left| |]; destruct Sc as [Sc|Sc]; rewrite Sc in F1; discriminate F1. }
  cbn [app] in Q. destruct t2 as [|y t2]; [discriminate Q|].
  assert (L2 : lex src = (t1 ++ [x]) ++ y :: t2) by (rewrite <- app_assoc; exact L).
  assert (Ny : tk_text y <> []) by (apply Ne, in_app_iff; right; right; now left).
  destruct (space_token src (t1 ++ [x]) y t2 (c :: w) (nl ++ post) L2) as [Ky Ty]; [now rewrite <- Q|discriminate|exact S| |exact Ny|].
  { intros d r F Hd. destruct Hn as [-> | ->]; cbn [app] in F; injection F as <- _; destruct Hd as [Hd|Hd]; discriminate Hd. }
  cbn [map List.concat] in Q. rewrite Ty in Q. cbn [app] in Q. injection Q as Q. apply app_inv_head in Q.
  destruct t2 as [|z t2]; [destruct Hn as [-> | ->]; discriminate Q|].
  assert (L3 : lex src = (t1 ++ [x; y]) ++ z :: t2) by (rewrite <- app_assoc; exact L).
  assert (Nz : tk_text z <> []) by (apply Ne, in_app_iff; do 3 right; now left).
  destruct (break_token src (t1 ++ [x; y]) z t2 nl post Hn L3) as [Kz _]; [now rewrite <- Q|exact Nz|].
  exists t1, x, y, z, t2. split; [exact L|]. split; [exact Kx|]. split; [exact Ky|]. split; [exact Kz|]. split; [exact Ty|].
  assert (G : forall ts o e, adjacent o (ts ++ x :: y :: z :: t2) e -> tk_start y = tk_start x + blen (tk_text x)).
  { clear. induction ts as [|t ts IH]; intros o e A; cbn [app] in A; inversion A as [|? ? ? ? A1 A2 A3 A4]; subst; [|eauto].
    inversion A4; subst. lia. }
  rewrite (G _ _ _ A), T, blen_app. change (blen [LF]) with 1. lia.
Qed.

(** White space and line breaks do not start with a letter. *)
Lemma trivia_no_letter src t : In t (lex src) -> is_trivia (tk_kind t) = true ->
  Forall (fun c => c = 32 \/ c = 9 \/ c = LF \/ c = CR)%N (tk_text t).
Proof.
  intros I Tr. apply in_split in I as (t1 & t2 & L). destruct (token_described _ _ _ _ L) as [(K & _)|(p & k & w & u & M & _ & J & E & C)].
  - rewrite K in Tr. discriminate Tr.
  - destruct C as [[-> K]|(_ & _ & X)]; [|rewrite X in Tr; discriminate Tr]. rewrite app_nil_r in E. rewrite E. destruct M as (_ & D & _). rewrite K in Tr.
    destruct k; try discriminate Tr.
    + pose proof (only_ws p J) as ->. apply ws_spaces in D as [_ D]. unfold spaces in D. eapply Forall_impl; [|exact D]. cbn. tauto.
    + pose proof (only_lb p J) as ->. apply lb_parts in D as [D _]. eapply Forall_impl; [|exact D]. cbn. tauto.
Qed.
