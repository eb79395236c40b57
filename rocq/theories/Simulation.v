(** Simulation: the concrete parser (events, forward parents, open markers) followed by the
    sink and the tree builder computes what the tree machine computes. *)
From Coq Require Import NArith String Bool Arith Lia List.
Import ListNotations.
From Verif Require Import Text Kind Lexer ParserApi GrammarHtml Machine TreeMachine.
Local Notation length := List.length (only parsing).
Local Open Scope string_scope.
Local Open Scope list_scope.
Local Open Scope prog_scope.

(** * Lists *)

Lemma set_nth_length : forall (A : Type) i (x : A) l, length (set_nth i x l) = length l.
Proof.
  intros A i x l. unfold set_nth. rewrite <- (firstn_skipn i l) at 3. rewrite !app_length.
  f_equal. destruct (skipn i l); reflexivity.
Qed.

Lemma set_nth_app : forall (A : Type) (a : list A) y b x, set_nth (length a) x (a ++ y :: b) = a ++ x :: b.
Proof.
  intros A a y b x. unfold set_nth. rewrite firstn_app, firstn_all, Nat.sub_diag.
  rewrite skipn_app, skipn_all, Nat.sub_diag. cbn. now rewrite app_nil_r.
Qed.

Lemma set_nth_app2 : forall (A : Type) (a b : list A) i x,
  set_nth (length a + i) x (a ++ b) = a ++ set_nth i x b.
Proof.
  intros A a b i x. unfold set_nth. rewrite firstn_app, skipn_app.
  rewrite firstn_all2, skipn_all2 by lia.
  replace (length a + i - length a) with i by lia. cbn. now rewrite app_assoc.
Qed.

Lemma set_nth_app1 : forall (A : Type) (a b : list A) i x, i < length a ->
  set_nth i x (a ++ b) = set_nth i x a ++ b.
Proof.
  intros A a b i x Hi. unfold set_nth. rewrite firstn_app, skipn_app.
  replace (i - length a) with 0 by lia. cbn [firstn skipn]. rewrite app_nil_r, <- app_assoc.
  f_equal. destruct (skipn i a) as [|y r] eqn:E; [|reflexivity].
  apply (f_equal (@length A)) in E. rewrite skipn_length in E. cbn in E. lia.
Qed.

Lemma nth_error_app_mid : forall (A : Type) (a b : list A) y, nth_error (a ++ y :: b) (length a) = Some y.
Proof. intros A a b y. rewrite nth_error_app2, Nat.sub_diag by lia. reflexivity. Qed.

(** * Builder *)

Definition b_adds (ts : list tree) (b : builder) : builder := fold_left (fun b t => b_add t b) ts b.
Definition b_starts (ks : list kind) (b : builder) : builder := fold_left (fun b k => b_start k b) ks b.

Lemma b_adds_app : forall x y b, b_adds (x ++ y) b = b_adds y (b_adds x b).
Proof. intros; apply fold_left_app. Qed.
Lemma b_starts_app : forall x y b, b_starts (x ++ y) b = b_starts y (b_starts x b).
Proof. intros; apply fold_left_app. Qed.

Lemma b_adds_open : forall ts k cs fs base,
  b_adds ts (mkB ((k, cs) :: fs) base) = mkB ((k, rev ts ++ cs) :: fs) base.
Proof.
  induction ts as [|t ts IH]; intros k cs fs base; [reflexivity|].
  cbn [b_adds fold_left b_add b_open b_base]. fold (b_adds ts). unfold b_adds in IH.
  rewrite IH. cbn [rev]. now rewrite <- app_assoc.
Qed.

Lemma b_finish_adds : forall k ts b,
  b_finish_node (b_adds ts (b_start k b)) = OK (b_add (Node k ts) b).
Proof.
  intros k ts [op base]. unfold b_start. cbn [b_open b_base]. rewrite b_adds_open, app_nil_r.
  cbn [b_finish_node b_open b_base]. now rewrite rev_involutive.
Qed.

Lemma s_trivia_spec : forall ts b,
  s_trivia ts b = (drop_trivia ts, b_adds (map leaf (take_trivia ts)) b).
Proof.
  induction ts as [|t ts IH]; intros b; [reflexivity|].
  cbn [s_trivia drop_trivia take_trivia]. destruct (is_trivia (tk_kind t)); [|reflexivity].
  rewrite IH. reflexivity.
Qed.

(** * Forward-parent chains *)

(** [chain tgt L ks L']: following forward parents from an event whose forward parent is at
    position [tgt] of [L] collects the kinds [ks] and turns [L] into [L']. *)
Inductive chain : option nat -> list event -> list kind -> list event -> Prop :=
| chain_none L : chain None L [] L
| chain_some q L k fp ks L' :
    nth_error L q = Some (EStart k fp) -> fp <> Some 0 ->
    chain (option_map (Nat.add q) fp) (set_nth q EPlaceholder L) ks L' ->
    chain (Some q) L (k :: ks) L'.

Lemma chain_length : forall tgt L ks L', chain tgt L ks L' -> length L' = length L.
Proof. induction 1; auto. rewrite IHchain. apply set_nth_length. Qed.

Lemma chain_shift : forall p tgt L ks L', chain tgt L ks L' ->
  chain (option_map (Nat.add (length p)) tgt) (p ++ L) ks (p ++ L').
Proof.
  intros p tgt L ks L' H. induction H as [L|q L k fp ks L' Hn Hf Hc IH]; cbn [option_map].
  - constructor.
  - econstructor.
    + rewrite nth_error_app2 by lia. replace (length p + q - length p) with q by lia. exact Hn.
    + exact Hf.
    + rewrite set_nth_app2. destruct fp as [d|]; cbn [option_map] in *; [|exact IH].
      rewrite <- Nat.add_assoc. exact IH.
Qed.

Lemma s_follow_chain : forall tgt L ks L', chain tgt L ks L' ->
  forall fuel idx fp, tgt = option_map (Nat.add idx) fp -> fp <> Some 0 ->
  (forall q, tgt = Some q -> length L - idx <= fuel) ->
  s_follow fuel idx fp L = OK (ks, L').
Proof.
  induction 1 as [L|q L k fp ks L' Hn Hf Hc IH]; intros fuel idx fp0 Ht Hf0 Hfuel.
  - destruct fp0; [discriminate|]. destruct fuel; reflexivity.
  - destruct fp0 as [d|]; [|discriminate]. injection Ht as ->.
    assert (Hlt : idx + d < length L) by (apply nth_error_Some; congruence).
    specialize (Hfuel _ eq_refl).
    destruct fuel as [|fuel]; [lia|]. cbn [s_follow]. rewrite Hn.
    rewrite (IH fuel (idx + d) fp); [reflexivity|reflexivity|exact Hf|].
    intros q _. rewrite set_nth_length. destruct d; [congruence|lia].
Qed.

(** * Segments of events *)

(** The events [es] (not at the end of the event list) add the trees [ts]. *)
Definition seg (es : list event) (ts : list tree) (t1 t2 : list token) : Prop :=
  forall suf n b, s_loop (length es + S n) (es ++ suf) t1 b = s_loop (S n) suf t2 (b_adds ts b).

Lemma seg_nil : forall t, seg [] [] t t.
Proof. intros t suf n b. reflexivity. Qed.

Lemma seg_app : forall e1 e2 x1 x2 t1 t2 t3, seg e1 x1 t1 t2 -> seg e2 x2 t2 t3 ->
  seg (e1 ++ e2) (x1 ++ x2) t1 t3.
Proof.
  intros e1 e2 x1 x2 t1 t2 t3 H1 H2 suf n b. rewrite app_length, <- app_assoc, b_adds_app.
  replace (length e1 + length e2 + S n) with (length e1 + S (length e2 + n)) by lia.
  rewrite H1. replace (S (length e2 + n)) with (length e2 + S n) by lia. apply H2.
Qed.

(** The events [es] of a completed node whose start event is at position [h]: they build
    [nd], wherever its forward parent leads. *)
Definition nodeseg (es : list event) (h : nat) (nd : tree) (t1 t2 : list token) : Prop :=
  exists k, nth_error es h = Some (EStart k None) /\
  forall tgt suf ks suf' n b, chain tgt suf ks suf' ->
    s_loop (length es + S n)
      (set_nth h (EStart k (option_map (fun q => length es - h + q) tgt)) es ++ suf) t1 b
    = s_loop (S n) suf' t2 (b_add nd (b_starts (rev ks) b)).

Lemma set_nth_same : forall (A : Type) i (x : A) l, nth_error l i = Some x -> set_nth i x l = l.
Proof.
  intros A i x l H. apply nth_error_split in H as (a & b & -> & <-). apply set_nth_app.
Qed.

Lemma nodeseg_seg : forall es h nd t1 t2, nodeseg es h nd t1 t2 -> seg es [nd] t1 t2.
Proof.
  intros es h nd t1 t2 (k & Hk & H) suf n b.
  specialize (H None suf [] suf n b (chain_none _)). cbn [option_map rev b_starts fold_left] in H.
  rewrite set_nth_same in H by assumption. exact H.
Qed.

(** Encoding of one item, whose events start at event index [p]. *)
Inductive enc1 (p : nat) : item -> list event -> list token -> list token -> Prop :=
| enc_tok t1 t us k : drop_trivia t1 = t :: us ->
    enc1 p (ITok (take_trivia t1) k [t]) [EToken k] t1 us
| enc_ntok t1 n k : n <= length (drop_trivia t1) ->
    enc1 p (ITok (take_trivia t1) k (firstn n (drop_trivia t1))) [ENextN n k] t1
         (skipn n (drop_trivia t1))
| enc_triv t1 : enc1 p (ITriv (take_trivia t1)) [ETrivia] t1 (drop_trivia t1)
| enc_node m nd es t1 t2 : nodeseg es (m - p) nd t1 t2 -> p <= m ->
    enc1 p (INode m nd) es t1 t2.

Lemma enc1_seg : forall p i es t1 t2, enc1 p i es t1 t2 -> seg es (item_trees i) t1 t2.
Proof.
  intros p i es t1 t2 H. destruct H as [t1 t us k H|t1 n k H|t1|m nd es t1 t2 H Hp].
  - intros suf n b. cbn [length app Nat.add s_loop]. cbn [orb]. rewrite s_trivia_spec, H.
    cbn [item_trees map concat]. rewrite app_nil_r, b_adds_app. reflexivity.
  - intros suf m b. cbn [length app Nat.add s_loop]. cbn [orb]. rewrite s_trivia_spec.
    destruct (Nat.leb_spec n (length (drop_trivia t1))); [|lia].
    cbn [item_trees]. rewrite b_adds_app. reflexivity.
  - intros suf m b. cbn [length app Nat.add s_loop]. cbn [orb]. rewrite s_trivia_spec. reflexivity.
  - now apply nodeseg_seg in H.
Qed.

(** Encoding of a list of items. *)
Inductive encf (p : nat) : list item -> list event -> list token -> list token -> Prop :=
| encf_nil t : encf p [] [] t t
| encf_snoc its es i e t1 t2 t3 :
    encf p its es t1 t2 -> enc1 (p + length es) i e t2 t3 ->
    encf p (its ++ [i]) (es ++ e) t1 t3.

Lemma trees_app : forall a b, trees (a ++ b) = trees a ++ trees b.
Proof. intros; apply flat_map_app. Qed.

Lemma encf_seg : forall p its es t1 t2, encf p its es t1 t2 -> seg es (trees its) t1 t2.
Proof.
  induction 1 as [t|its es i e t1 t2 t3 H IH H1].
  - apply seg_nil.
  - rewrite trees_app. eapply seg_app; [exact IH|]. cbn [trees flat_map]. rewrite app_nil_r.
    eapply enc1_seg; eauto.
Qed.

Lemma encf_cons : forall p i e t1 t2, enc1 p i e t1 t2 ->
  forall its es t3, encf (p + length e) its es t2 t3 -> encf p (i :: its) (e ++ es) t1 t3.
Proof.
  intros p i e t1 t2 H1 its es t3 H. remember (p + length e) as q eqn:Eq.
  revert i e t1 H1 Eq. induction H as [t|its es j e' u1 u2 u3 H IH H2]; intros i e t1 H1 ->.
  - rewrite app_nil_r. change [i] with ([] ++ [i]). change e with ([] ++ e).
    econstructor; [constructor|]. cbn. now rewrite Nat.add_0_r.
  - rewrite app_assoc. change (i :: its ++ [j]) with ((i :: its) ++ [j]).
    econstructor; [apply IH; eauto|]. now rewrite app_length, Nat.add_assoc.
Qed.

Lemma encf_app_inv : forall p a b es t1 t3, encf p (a ++ b) es t1 t3 ->
  exists ea eb t2, es = ea ++ eb /\ encf p a ea t1 t2 /\ encf (p + length ea) b eb t2 t3.
Proof.
  intros p a b. induction b as [|j b IH] using rev_ind; intros es t1 t3 H.
  - rewrite app_nil_r in H. exists es, [], t3. rewrite app_nil_r. repeat split; auto. constructor.
  - rewrite app_assoc in H. inversion H as [|its es0 i e u1 u2 u3 H1 H2 E1 E2]; subst.
    + destruct (a ++ b); discriminate.
    + apply app_inj_tail in E1 as [-> ->]. apply IH in H1 as (ea & eb & t2 & -> & Ha & Hb).
      exists ea, (eb ++ e), t2. rewrite app_assoc. repeat split; auto.
      econstructor; [exact Hb|]. now rewrite <- Nat.add_assoc, <- app_length.
Qed.

Lemma encf_cons_inv : forall p i its es t1 t3, encf p (i :: its) es t1 t3 ->
  exists e es' t2, es = e ++ es' /\ enc1 p i e t1 t2 /\ encf (p + length e) its es' t2 t3.
Proof.
  intros p i its es t1 t3 H. change (i :: its) with ([i] ++ its) in H.
  apply encf_app_inv in H as (ea & eb & t2 & -> & H1 & H2).
  inversion H1 as [|its0 es0 i0 e u1 u2 u3 H3 H4 E1 E2]; subst.
  change [i] with ([] ++ [i]) in E1. apply app_inj_tail in E1 as [-> ->].
  inversion H3 as [|its0 es1 i0 e0 v1 v2 v3 H5 H6 E3 E4]; subst.
  - exists e, eb, t2. cbn in *. rewrite Nat.add_0_r in H4. auto.
  - destruct its0; discriminate.
Qed.

(** Encoding of a state: open frames and the items of the innermost one. *)
Inductive encs (T : list token) : list (nat * list item) -> list item -> list event -> list token -> Prop :=
| E_bot its es t : encf 0 its es T t -> encs T [] its es t
| E_start st saved its es0 es1 t1 t2 :
    encs T st saved es0 t1 -> encf (S (length es0)) its es1 t1 t2 ->
    encs T ((length es0, saved) :: st) its (es0 ++ EPlaceholder :: es1) t2
| E_prec st saved nd e h k recent es1 its es0 es2 m t1 t2 t3 t4 :
    encs T st saved es0 t1 ->
    nodeseg e h nd t1 t2 -> nth_error e h = Some (EStart k None) ->
    encf (length es0 + length e) recent es1 t2 t3 ->
    m = length es0 + length e + length es1 ->
    encf (S m) its es2 t3 t4 ->
    encs T ((m, saved) :: st) (ILock nd :: map lock recent ++ its)
         (es0 ++ set_nth h (EStart k (Some (length e - h + length es1))) e ++ es1
          ++ EPlaceholder :: es2) t4.

Lemma encs_add : forall T st its es t1 i e t2, encs T st its es t1 -> enc1 (length es) i e t1 t2 ->
  encs T st (its ++ [i]) (es ++ e) t2.
Proof.
  intros T st its es t1 i e t2 H H1. inversion H; subst.
  - constructor. econstructor; eauto.
  - rewrite <- app_assoc. cbn [app]. econstructor; eauto. econstructor; eauto.
    rewrite app_length in H1. cbn [length] in H1.
    replace (S (length es0) + length es1) with (length es0 + S (length es1)) by lia. exact H1.
  - rewrite <- !app_assoc. cbn [app]. rewrite <- app_assoc. econstructor; eauto.
    econstructor; eauto.
    rewrite !app_length, set_nth_length in H1. cbn [length] in H1.
    match goal with |- enc1 ?x _ _ _ _ => match type of H1 with enc1 ?y _ _ _ _ => replace x with y by lia end end.
    exact H1.
Qed.

Lemma nodeseg_lt : forall e h nd t1 t2, nodeseg e h nd t1 t2 -> h < length e.
Proof. intros e h nd t1 t2 (k & Hk & _). apply nth_error_Some. congruence. Qed.

Lemma nodeseg_complete_start : forall es1 its p t1 t2 k,
  encf p its es1 t1 t2 ->
  nodeseg (EStart k None :: es1 ++ [EFinish]) 0 (Node k (trees its)) t1 t2.
Proof.
  intros es1 its p t1 t2 k H. exists k. split; [reflexivity|].
  intros tgt suf ks suf' n b Hc. apply encf_seg in H.
  change (set_nth 0 ?x (?y :: ?z)) with (x :: z).
  cbn [length app]. rewrite Nat.sub_0_r. cbn [Nat.add]. cbn [s_loop].
  assert (Hn : exists m, length (es1 ++ [EFinish]) + S n = S m) by (exists (length (es1 ++ [EFinish]) + n); lia).
  destruct Hn as [m Hm]. cbn [orb]. rewrite Hm.
  rewrite s_follow_chain with (tgt := option_map (fun q => S (length (es1 ++ [EFinish]) + q)) tgt)
    (ks := ks) (L' := EPlaceholder :: (es1 ++ [EFinish]) ++ suf').
  - cbn [rbind snd fst tl]. rewrite <- Hm.
    fold (b_starts (rev (k :: ks)) b). cbn [rev]. rewrite b_starts_app.
    rewrite app_length. cbn [length]. rewrite <- app_assoc. cbn [app].
    replace (length es1 + 1 + S n) with (length es1 + S (S n)) by lia.
    rewrite H. cbn [s_loop orb]. cbn [b_starts fold_left]. rewrite b_finish_adds. reflexivity.
  - pose proof (chain_shift (EPlaceholder :: es1 ++ [EFinish]) _ _ _ _ Hc) as Hc'.
    destruct tgt; exact Hc'.
  - destruct tgt; reflexivity.
  - destruct tgt as [q|]; cbn; discriminate.
  - intros q Hq. cbn [length]. lia.
Qed.

Lemma nodeseg_complete_prec : forall e h nd k0 es1 es2 recent its p q t1 t2 t3 t4 k,
  nodeseg e h nd t1 t2 -> nth_error e h = Some (EStart k0 None) ->
  encf p recent es1 t2 t3 -> encf q its es2 t3 t4 ->
  nodeseg (set_nth h (EStart k0 (Some (length e - h + length es1))) e ++ es1
           ++ EStart k None :: es2 ++ [EFinish])
          (length e + length es1) (Node k (nd :: trees recent ++ trees its)) t1 t4.
Proof.
  intros e h nd k0 es1 es2 recent its p q t1 t2 t3 t4 k Hn He H1 H2.
  destruct Hn as (k0' & He' & Hn). rewrite He in He'. injection He' as <-.
  apply encf_seg in H1, H2. exists k. split.
  { rewrite app_assoc, nth_error_app2; rewrite app_length, set_nth_length; [|lia].
    rewrite Nat.sub_diag. reflexivity. }
  intros tgt suf ks suf' n b Hc.
  set (e' := set_nth h (EStart k0 (Some (length e - h + length es1))) e).
  assert (Le : length e' = length e) by apply set_nth_length.
  set (fp := option_map (fun x => length (e' ++ es1 ++ EStart k None :: es2 ++ [EFinish])
                                  - (length e + length es1) + x) tgt).
  assert (Hset : set_nth (length e + length es1) (EStart k fp) (e' ++ es1 ++ EStart k None :: es2 ++ [EFinish])
     = e' ++ es1 ++ EStart k fp :: es2 ++ [EFinish]).
  { rewrite app_assoc. replace (length e + length es1) with (length (e' ++ es1))
      by (rewrite app_length, Le; reflexivity).
    rewrite set_nth_app. now rewrite <- app_assoc. }
  rewrite Hset. rewrite <- !app_assoc. cbn [app]. rewrite <- app_assoc.
  assert (Hfp : fp = option_map (fun x => S (length es2) + 1 + x) tgt).
  { unfold fp. destruct tgt; [|reflexivity]. cbn [option_map]. f_equal.
    rewrite !app_length, Le. cbn [length]. rewrite app_length. cbn [length]. lia. }
  assert (Hc2 : chain (Some (length es1)) (es1 ++ EStart k fp :: es2 ++ [EFinish] ++ suf) (k :: ks)
                      (es1 ++ EPlaceholder :: es2 ++ [EFinish] ++ suf')).
  { econstructor.
    - apply nth_error_app_mid.
    - rewrite Hfp. destruct tgt; cbn; discriminate.
    - rewrite set_nth_app.
      pose proof (chain_shift (es1 ++ EPlaceholder :: es2 ++ [EFinish]) _ _ _ _ Hc) as Hc'.
      rewrite <- !app_assoc in Hc'. cbn [app] in Hc'. rewrite <- !app_assoc in Hc'. cbn [app] in Hc'.
      cbn [app]. rewrite Hfp.
      replace (option_map (Nat.add (length es1)) (option_map (fun x => S (length es2) + 1 + x) tgt))
        with (option_map (Nat.add (length (es1 ++ EPlaceholder :: es2 ++ [EFinish]))) tgt); [exact Hc'|].
      destruct tgt; [|reflexivity]. cbn [option_map]. f_equal.
      rewrite app_length. cbn [length]. rewrite app_length. cbn [length]. lia. }
  specialize (Hn (Some (length es1)) _ _ _ (length es1 + S (length es2 + S n)) b Hc2).
  cbn [option_map] in Hn. fold e' in Hn.
  replace (length (e' ++ es1 ++ EStart k None :: es2 ++ [EFinish]) + S n)
    with (length e + S (length es1 + S (length es2 + S n))).
  2:{ rewrite !app_length, Le. cbn [length]. rewrite app_length. cbn [length]. lia. }
  rewrite Hn.
  replace (S (length es1 + S (length es2 + S n))) with (length es1 + S (S (length es2 + S n))) by lia.
  rewrite H1.
  change (s_loop (S (S (length es2 + S n))) (EPlaceholder :: es2 ++ [EFinish] ++ suf') t3
    (b_adds (trees recent) (b_add nd (b_starts (rev (k :: ks)) b))))
    with (s_loop (S (length es2 + S n)) (es2 ++ [EFinish] ++ suf') t3
    (b_adds (trees recent) (b_add nd (b_starts (rev (k :: ks)) b)))).
  replace (S (length es2 + S n)) with (length es2 + S (S n)) by lia.
  rewrite H2. cbn [rev]. rewrite b_starts_app.
  change (b_starts [k] (b_starts (rev ks) b)) with (b_start k (b_starts (rev ks) b)).
  replace (b_adds (trees its) (b_adds (trees recent) (b_add nd (b_start k (b_starts (rev ks) b)))))
    with (b_adds (nd :: trees recent ++ trees its) (b_start k (b_starts (rev ks) b))).
  2:{ change (nd :: trees recent ++ trees its) with ([nd] ++ trees recent ++ trees its).
      rewrite !b_adds_app. reflexivity. }
  cbn [s_loop orb app]. rewrite b_finish_adds. reflexivity.
Qed.

Lemma trees_lock : forall l, trees (map lock l) = trees l.
Proof.
  induction l as [|i l IH]; [reflexivity|]. cbn [map trees flat_map].
  fold (trees (map lock l)). rewrite IH. now destruct i.
Qed.

Lemma split_node_spec : forall c its a t b, split_node c its = Some (a, t, b) ->
  its = a ++ INode c t :: b.
Proof.
  induction its as [|i its IH]; intros a t b H; [discriminate|]. cbn [split_node] in H.
  destruct (split_node c its) as [[[a' t'] b']|] eqn:E.
  - injection H as <- <- <-. cbn [app]. f_equal. now apply IH.
  - destruct i as [| |m t'|]; try discriminate.
    destruct (Nat.eqb_spec m c) as [->|]; [|discriminate]. now injection H as <- <- <-.
Qed.

Lemma encs_start : forall T st its es t, encs T st its es t ->
  encs T ((length es, its) :: st) [] (es ++ [EPlaceholder]) t.
Proof. intros. econstructor; eauto. constructor. Qed.

Lemma encs_complete : forall T m saved st its es t k, encs T ((m, saved) :: st) its es t ->
  nth_error es m = Some EPlaceholder /\
  encs T st (saved ++ [INode m (Node k (trees its))]) (set_nth m (EStart k None) es ++ [EFinish]) t.
Proof.
  intros T m saved st its es t k H. inversion H; subst.
  - split; [apply nth_error_app_mid|]. rewrite set_nth_app, <- app_assoc. cbn [app].
    eapply encs_add; eauto. constructor; [|lia]. rewrite Nat.sub_diag.
    eapply nodeseg_complete_start; eauto.
  - set (m := length es0 + length e + length es1).
    match goal with |- nth_error (_ ++ ?e' ++ _) _ = _ /\ _ => set (e1 := e') end.
    assert (Lm : m = length (es0 ++ e1 ++ es1))
      by (rewrite !app_length; unfold e1; rewrite set_nth_length; lia).
    replace (es0 ++ e1 ++ es1 ++ EPlaceholder :: es2) with ((es0 ++ e1 ++ es1) ++ EPlaceholder :: es2)
      by now rewrite <- !app_assoc.
    split; [rewrite Lm; apply nth_error_app_mid|].
    rewrite Lm, set_nth_app. rewrite <- !app_assoc. cbn [app]. eapply encs_add; eauto.
    constructor.
    + replace (length (es0 ++ e1 ++ es1) - length es0) with (length e + length es1) by lia.
      cbn [trees flat_map]. fold (trees (map lock recent ++ its0)).
      rewrite trees_app, trees_lock. eapply nodeseg_complete_prec; eauto.
    + rewrite !app_length; lia.
Qed.

Lemma encs_precede_aux : forall T st older c nd recent es0 e es1 p t1 t2 t3,
  encs T st older es0 t1 -> length es0 = p -> enc1 p (INode c nd) e t1 t2 ->
  encf (p + length e) recent es1 t2 t3 ->
  let es := es0 ++ e ++ es1 in
  exists k, nth_error es c = Some (EStart k None) /\ c < length es /\
  encs T ((length es, older) :: st) (ILock nd :: map lock recent)
       (set_nth c (EStart k (Some (length es - c))) (es ++ [EPlaceholder])) t3.
Proof.
  intros T st older c nd recent es0 e es1 p t1 t2 t3 H0 Hp H1 H2 es. inversion H1; subst.
  match goal with H : nodeseg _ _ _ _ _ |- _ => rename H into Hn end.
  assert (Hh : c - length es0 < length e) by (eapply nodeseg_lt; eauto).
  destruct (Hn) as (k & Hk & _). exists k.
  assert (Hc : c = length es0 + (c - length es0)) by lia.
  assert (Hlt : c < length es) by (unfold es; rewrite !app_length; lia).
  split; [|split; [exact Hlt|]].
  - unfold es. rewrite nth_error_app2, nth_error_app1 by lia. exact Hk.
  - rewrite set_nth_app1 by exact Hlt. unfold es. rewrite Hc at 1. rewrite set_nth_app2.
    rewrite set_nth_app1 by exact Hh. rewrite <- !app_assoc.
    replace (length (es0 ++ e ++ es1) - c) with (length e - (c - length es0) + length es1)
      by (rewrite !app_length; lia).
    rewrite <- (app_nil_r (map lock recent)).
    econstructor; eauto; [|constructor]. rewrite !app_length. lia.
Qed.

Lemma encs_precede : forall T st its es t c older nd recent,
  encs T st its es t -> split_node c its = Some (older, nd, recent) ->
  exists k, nth_error es c = Some (EStart k None) /\ c < length es /\
  encs T ((length es, older) :: st) (ILock nd :: map lock recent)
       (set_nth c (EStart k (Some (length es - c))) (es ++ [EPlaceholder])) t.
Proof.
  intros T st its es t c older nd recent H Hs. apply split_node_spec in Hs. revert Hs. inversion H; subst; intros Hs.
  - match goal with H : encf _ _ _ _ _ |- _ => rename H into Hf end. rewrite Hs in Hf.
    apply encf_app_inv in Hf as (ea & eb & u & -> & Ha & Hb).
    apply encf_cons_inv in Hb as (e & es' & u' & -> & He & Hr).
    eapply encs_precede_aux; eauto. now constructor.
  - match goal with H : encf _ _ _ _ _ |- _ => rename H into Hf end. rewrite Hs in Hf.
    apply encf_app_inv in Hf as (ea & eb & u & -> & Ha & Hb).
    apply encf_cons_inv in Hb as (e & es' & u' & -> & He & Hr).
    replace (es0 ++ EPlaceholder :: ea ++ e ++ es') with ((es0 ++ EPlaceholder :: ea) ++ e ++ es')
      by now rewrite <- app_assoc.
    eapply encs_precede_aux; [eapply E_start; eauto| |eauto|eauto]. rewrite app_length. cbn. lia.
  - match goal with H : encf (S _) _ _ _ _ |- _ => rename H into Hf end.
    assert (Hsp : exists o', older = ILock nd0 :: map lock recent0 ++ o' /\ its0 = o' ++ INode c nd :: recent).
    { destruct older as [|i0 older]; cbn [app] in Hs; [discriminate|]. injection Hs as <- Hs.
      clear - Hs. revert older Hs. induction recent0 as [|i r IH]; intros older Hs; cbn [map app] in Hs.
      - exists older. auto.
      - destruct older as [|j older]; cbn [app] in Hs.
        + injection Hs as Hl _. destruct i; discriminate.
        + injection Hs as <- Hs. apply IH in Hs as (o' & Ho & ->). exists o'. split; auto.
          cbn [map app]. injection Ho as ->. reflexivity. }
    destruct Hsp as (o' & -> & ->).
    apply encf_app_inv in Hf as (ea & eb & u & -> & Ha & Hb).
    apply encf_cons_inv in Hb as (e' & es' & u' & -> & He & Hr).
    match goal with |- context [set_nth h ?x e] => set (e1 := set_nth h x e) end.
    replace (es0 ++ e1 ++ es1 ++ EPlaceholder :: ea ++ e' ++ es')
      with ((es0 ++ e1 ++ es1 ++ EPlaceholder :: ea) ++ e' ++ es')
      by (rewrite <- !app_assoc; reflexivity).
    eapply encs_precede_aux; [eapply E_prec; eauto| |eauto|eauto].
    rewrite !app_length. unfold e1. rewrite set_nth_length. cbn [length]. lia.
Qed.

(** * Simulation of steps and runs *)

Record rel (T : list token) (s : tstate) (c : cstate) : Prop := mkRel {
  rel_toks : c_toks c = T;
  rel_rest : c_rest c = t_rest s;
  rel_errs : c_errs c = t_errs s;
  rel_nev : length (c_events c) = t_nev s;
  rel_open : c_open c = map fst (t_stack s);
  rel_enc : encs T (t_stack s) (t_items s) (c_events c) (t_snk s) }.

Definition simres {A S1 S2 : Type} (R : S1 -> S2 -> Prop) (r1 : res (A * S1)) (r2 : res (A * S2)) : Prop :=
  match r1 with
  | OK (a, s) => exists c, r2 = OK (a, c) /\ R s c
  | Panicked PStuck => True
  | Panicked q => r2 = Panicked q
  | NoFuel => r2 = NoFuel
  end.

Lemma simres_bind : forall (A B S1 S2 : Type) (R : S1 -> S2 -> Prop) r1 r2
  (f1 : A * S1 -> res (B * S1)) (f2 : A * S2 -> res (B * S2)),
  simres R r1 r2 -> (forall a s c, R s c -> simres R (f1 (a, s)) (f2 (a, c))) ->
  simres R (rbind r1 f1) (rbind r2 f2).
Proof.
  intros A B S1 S2 R r1 r2 f1 f2 H Hf. destruct r1 as [[a s]|p|]; cbn [simres] in H.
  - destruct H as (c & -> & H). cbn [rbind]. auto.
  - destruct p; try (rewrite H; reflexivity). exact I.
  - rewrite H. reflexivity.
Qed.

Section RunEqs.
  Context {St : Type} (step : forall B : Set, op B -> St -> res (B * St)).
  Lemma run_Ret : forall n (A : Set) (a : A) s, run step n (Ret a) s = OK (a, s).
  Proof. intros []; reflexivity. Qed.
  Lemma run_Op : forall n (A B : Set) (o : op B) (k : B -> prog A) s,
    run step n (Op o k) s = rbind (step _ o s) (fun bs => run step n (k (fst bs)) (snd bs)).
  Proof. intros []; reflexivity. Qed.
  Lemma run_Call : forall n (A : Set) c (k : option nat -> prog A) s,
    run step n (Call c k) s =
    rbind (match n with 0 => NoFuel | S n' => run step n' (body c) s end)
          (fun rs => run step n (k (fst rs)) (snd rs)).
  Proof. intros []; reflexivity. Qed.
  Lemma run_Iter : forall n (A X B : Set) (f : X -> prog (X + B)) x (k : B -> prog A) s,
    run step n (Iter f x k) s =
    rbind (rbind (run step n (f x) s) (fun ys =>
             match fst ys with
             | inr b => OK (b, snd ys)
             | inl x' => match n with 0 => NoFuel
                         | S n' => run step n' (Iter f x' (fun b => Ret b)) (snd ys) end
             end)) (fun bs => run step n (k (fst bs)) (snd bs)).
  Proof. intros []; reflexivity. Qed.

  Lemma rbind_assoc : forall (A B C : Type) (r : res A) (f : A -> res B) (g : B -> res C),
    rbind (rbind r f) g = rbind r (fun a => rbind (f a) g).
  Proof. intros A B C []; reflexivity. Qed.
  Lemma rbind_ext : forall (A B : Type) (r : res A) (f g : A -> res B), (forall a, f a = g a) ->
    rbind r f = rbind r g.
  Proof. intros A B [] f g H; cbn; auto. Qed.

  Lemma run_bind : forall n (A C : Set) (p : prog A) (g : A -> prog C) s,
    run step n (bind p g) s = rbind (run step n p s) (fun rs => run step n (g (fst rs)) (snd rs)).
  Proof.
    intros n A C p g. induction p as [A a|A B o k IH|A c k IH|A X B f IHf x k IH]; intros s; cbn [bind].
    - rewrite run_Ret. reflexivity.
    - rewrite !run_Op, rbind_assoc. apply rbind_ext. intros bs. apply IH.
    - rewrite !run_Call, rbind_assoc. apply rbind_ext. intros bs. apply IH.
    - rewrite !run_Iter. rewrite rbind_assoc with (r := rbind _ _). apply rbind_ext. intros bs. apply IH.
  Qed.
End RunEqs.

Lemma run_sim : forall (S1 S2 : Type) (R : S1 -> S2 -> Prop)
  (st1 : forall B : Set, op B -> S1 -> res (B * S1)) (st2 : forall B : Set, op B -> S2 -> res (B * S2)),
  (forall (B : Set) (o : op B) s c, R s c -> simres R (st1 B o s) (st2 B o c)) ->
  forall n (A : Set) (p : prog A) s c, R s c -> simres R (run st1 n p s) (run st2 n p c).
Proof.
  intros S1 S2 R st1 st2 Hstep. induction n as [n IHn] using (well_founded_induction lt_wf).
  intros A p. induction p as [A a|A B o k IH|A cl k IH|A X B f IHf x k IH]; intros s c HR.
  - rewrite !run_Ret. cbn. eauto.
  - rewrite !run_Op. apply simres_bind; auto.
  - rewrite !run_Call. apply simres_bind; [|auto]. destruct n as [|n']; [reflexivity|]. apply IHn; [lia|auto].
  - rewrite !run_Iter. apply simres_bind; [|auto]. apply simres_bind; [auto|].
    intros [x'|b] s' c' HR'; cbn [fst snd].
    + destruct n as [|n']; [reflexivity|]. apply IHn; [lia|auto].
    + cbn. eauto.
Qed.

Lemma step_sim : forall dbg T (B : Set) (o : op B) s c, rel T s c ->
  simres (rel T) (tstep false dbg T B o s) (cstep dbg B o c).
Proof.
  intros dbg T B o s c [Ht Hr He Hn Ho Hc]. destruct o; cbn [tstep cstep]; rewrite ?Ht, ?Hr.
  - cbn [simres]. eexists. split; [reflexivity|]. constructor; auto.
  - cbn [simres]. eexists. split; [reflexivity|]. constructor; auto.
  - destruct (drop_trivia (t_rest s)) as [|t ts]; [reflexivity|].
    destruct (drop_trivia (t_snk s)) as [|u us] eqn:Eu; [exact I|].
    cbn [simres]. eexists. split; [reflexivity|]. constructor; cbn [c_toks c_rest c_errs c_events c_open t_rest t_errs t_nev t_stack t_items t_snk]; auto.
    + rewrite app_length, Hn. cbn. lia.
    + eapply encs_add; eauto. now constructor.
  - destruct (Nat.eqb _ n); [|reflexivity].
    destruct (Nat.leb_spec n (length (drop_trivia (t_snk s)))); [|exact I].
    cbn [simres]. eexists. split; [reflexivity|]. constructor; cbn [c_toks c_rest c_errs c_events c_open t_rest t_errs t_nev t_stack t_items t_snk]; auto.
    + rewrite app_length, Hn. cbn. lia.
    + eapply encs_add; eauto. now constructor.
  - cbn [simres]. eexists. split; [reflexivity|]. constructor; cbn [c_toks c_rest c_errs c_events c_open t_rest t_errs t_nev t_stack t_items t_snk]; auto.
    + rewrite app_length, Hn. cbn. lia.
    + eapply encs_add; eauto. now constructor.
  - destruct at_ as [t|]; cbn [c_toks c_rest c_errs c_events c_open].
    + cbn [simres]. eexists. split; [reflexivity|]. constructor; cbn [c_toks c_rest c_errs c_events c_open t_rest t_errs t_nev t_stack t_items t_snk]; auto. now rewrite He.
    + destruct (error_here T (drop_trivia (t_rest s)) expected) as [err|p|] eqn:Ee; cbn [rbind].
      * cbn [simres]. eexists. split; [reflexivity|]. constructor; cbn [c_toks c_rest c_errs c_events c_open t_rest t_errs t_nev t_stack t_items t_snk]; auto. now rewrite He.
      * cbn [simres]. destruct p; auto.
      * reflexivity.
  - unfold c_start. cbn [simres]. rewrite Hn. eexists. split; [reflexivity|].
    constructor; cbn [c_toks c_rest c_errs c_events c_open t_rest t_errs t_nev t_stack t_items t_snk map fst]; auto.
    + rewrite app_length, Hn. cbn. lia.
    + now rewrite Ho.
    + rewrite <- Hn. now apply encs_start.
  - destruct (t_stack s) as [|[m' saved] st] eqn:Es; [exact I|].
    destruct (Nat.eqb_spec m' m) as [->|]; [|exact I]. unfold c_complete.
    destruct (encs_complete _ _ _ _ _ _ _ k Hc) as [Hm Hx].
    rewrite Ho. cbn [map fst remove_nat]. rewrite Nat.eqb_refl, Hm. cbn [negb]. rewrite !andb_false_r.
    cbn [simres]. eexists. split; [reflexivity|].
    constructor; cbn [c_toks c_rest c_errs c_events c_open t_rest t_errs t_nev t_stack t_items t_snk map fst]; auto.
    rewrite app_length, set_nth_length, Hn. cbn. lia.
  - destruct (split_node c0 (t_items s)) as [[[older nd] recent]|] eqn:Es; [|exact I].
    destruct (encs_precede _ _ _ _ _ _ _ _ _ Hc Es) as (k & Hk & Hlt & Hx).
    unfold c_precede, c_start. cbn [c_toks c_rest c_errs c_events c_open].
    rewrite nth_error_app1, Hk by exact Hlt. cbn [simres]. rewrite <- Hn.
    eexists. split; [reflexivity|].
    constructor; cbn [c_toks c_rest c_errs c_events c_open t_rest t_errs t_nev t_stack t_items t_snk map fst]; auto.
    + rewrite set_nth_length, app_length, Hn. cbn. lia.
    + now rewrite Ho.
  - cbn [simres]. destruct p; auto.
  - destruct dbg.
    + destruct (f (drop_trivia (t_rest s))); [|reflexivity].
      cbn [simres]. eexists. split; [reflexivity|]. constructor; auto.
    + cbn [simres]. eexists. split; [reflexivity|]. constructor; auto.
Qed.

Lemma rel_init : forall T, rel T (t_init T) (c_init T).
Proof. intros T. constructor; try reflexivity. constructor. constructor. Qed.

Theorem run_refines : forall dbg T n (A : Set) (p : prog A),
  simres (rel T) (run (tstep false dbg T) n p (t_init T)) (run (cstep dbg) n p (c_init T)).
Proof. intros. eapply run_sim; [apply step_sim|apply rel_init]. Qed.

(** * The whole parser *)

(** [root] without its first and last primitive. *)
Definition root_body : prog unit :=
  parse_many (Ret false)
    (r <- Call (CChild PFAny) (fun r => Ret r) ;;
     e <- (if is_none r then b <- at_end ;; Ret (negb b) else Ret false) ;;
     when e (add_error "html, text or twig element" ;; recover [])).

Lemma root_eq : root = (m <- start ;; root_body ;; complete m ROOT).
Proof. reflexivity. Qed.

Definition t_root (T : list token) : tstate := mkT T T [] [(0, [])] 1 [].

Lemma take_drop_trivia : forall l, take_trivia l ++ drop_trivia l = l.
Proof.
  induction l as [|t l IH]; [reflexivity|]. cbn [take_trivia drop_trivia].
  destruct (is_trivia (tk_kind t)); [|reflexivity]. cbn [app]. now rewrite IH.
Qed.

Lemma parse_tokens_sim : forall dbg n T,
  match run (tstep false dbg T) n root_body (t_root T) with
  | OK (_, s) => t_stack s = [(0, [])] -> drop_trivia (t_snk s) = [] ->
      parse_tokens dbg n T = OK (Node ROOT (trees (t_items s) ++ map leaf (t_snk s)), t_errs s)
  | Panicked PStuck => True
  | Panicked q => parse_tokens dbg n T = Panicked q
  | NoFuel => parse_tokens dbg n T = NoFuel
  end.
Proof.
  intros dbg n T.
  assert (Hr0 : rel T (t_root T) (mkC T T [EPlaceholder] [0] [])).
  { constructor; try reflexivity. apply (E_start T [] [] [] [] [] T T); [constructor|]; constructor. }
  pose proof (run_sim _ _ _ _ _ (step_sim dbg T) n _ root_body _ _ Hr0) as H.
  assert (Hrun : forall c, run (cstep dbg) n root c =
    rbind (run (cstep dbg) n start c) (fun rs =>
      rbind (run (cstep dbg) n root_body (snd rs)) (fun rs' =>
        run (cstep dbg) n (complete (fst rs) ROOT) (snd rs')))).
  { intros c. rewrite root_eq, run_bind. apply rbind_ext. intros rs. apply run_bind. }
  assert (Hst : run (cstep dbg) n start (c_init T) = OK (0, mkC T T [EPlaceholder] [0] [])).
  { unfold start, prim. rewrite run_Op. cbn [cstep rbind fst snd]. now rewrite run_Ret. }
  unfold parse_tokens, parser_parse. rewrite Hrun, Hst. cbn [rbind fst snd].
  destruct (run (tstep false dbg T) n root_body (t_root T)) as [[u s]|q|]; cbn [simres] in H.
  - destruct H as (c & -> & [Ht Hrs He Hn Ho Hc]). intros Hs Hd. cbn [rbind fst snd].
    rewrite Hs in Ho, Hc. unfold complete, prim. rewrite run_Op. cbn [cstep].
    destruct (encs_complete _ _ _ _ _ _ _ ROOT Hc) as [Hm _].
    unfold c_complete. rewrite Ho, Hm. cbn [map fst Nat.eqb remove_nat]. cbn [negb].
    rewrite !andb_false_r. cbn [rbind fst snd]. rewrite run_Ret.
    cbn [rbind fst snd c_open c_events c_errs]. rewrite He.
    assert (Hev : exists es1, c_events c = EPlaceholder :: es1 /\ encf 1 (t_items s) es1 T (t_snk s)).
    { inversion Hc as [|st saved its es0 es1 t1 t2 H1 H2 E0 E1 E2|
        st saved nd e h k recent es1 its es0 es2 m t1 t2 t3 t4 H1 H2 H3 H4 H5 H6 E0 E1 E2]; subst.
      - destruct es0; [|discriminate]. exists es1. split; [reflexivity|].
        inversion H1 as [its' es' t' Hf0| |]; subst.
        inversion Hf0 as [|its' es' i e u1 u2 u3 G1 G2 F0]; subst; [exact H2|].
        destruct its'; discriminate F0.
      - apply nodeseg_lt in H2. lia. }
    destruct Hev as (es1 & -> & Hf). change (set_nth 0 ?x (?y :: ?z)) with (x :: z).
    unfold sink. apply encf_seg in Hf. cbn [app length]. cbn [s_loop].
    rewrite app_length. cbn [length]. replace (length es1 + 1) with (S (length es1)) by lia.
    cbn [orb]. rewrite app_length. cbn [length]. replace (length es1 + 1) with (S (length es1)) by lia.
    cbn [s_follow rbind fst snd tl rev app fold_left].
    specialize (Hf [EFinish] 0 (b_start ROOT (mkB [] []))).
    replace (length es1 + 1) with (S (length es1)) in Hf by lia. rewrite Hf.
    cbn [s_loop orb]. rewrite s_trivia_spec, <- b_adds_app, b_finish_adds. cbn [rbind fst snd].
    rewrite Hd. cbn [b_add b_open b_base b_finish].
    pose proof (take_drop_trivia (t_snk s)) as Htd. rewrite Hd, app_nil_r in Htd. rewrite Htd. reflexivity.
  - destruct q; try exact I; rewrite H; reflexivity.
  - rewrite H. reflexivity.
Qed.
