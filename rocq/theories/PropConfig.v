(** Property theorems about loading the configuration: C64-C66. *)
From Coq Require Import NArith ZArith String Bool Arith Lia List.
Import ListNotations.
From Verif Require Import Text Regex Lexer LexerProofs Rule DefaultConfig ConfigLoad.
Local Notation length := List.length (only parsing).
Local Open Scope list_scope.

(** * Specification: the settings, where they are in a file, their variables *)
Inductive setting : Set :=
| Version | ActiveRules | LineEnding | IndentationMode | IndentationCount | IndentChildren | Linebreaks
| TwigQuotation | HtmlQuotation | ValidFilters | ValidTests | ValidFunctions.
Definition place (s : setting) : list text :=
  match s with
  | Version => [txt "version"]
  | ActiveRules => [txt "general"; txt "active-rules"]
  | LineEnding => [txt "format"; txt "line-ending"]
  | IndentationMode => [txt "format"; txt "indentation-mode"]
  | IndentationCount => [txt "format"; txt "indentation-count"]
  | IndentChildren => [txt "format"; txt "indent-children-of-blocks"]
  | Linebreaks => [txt "format"; txt "linebreaks-around-blocks"]
  | TwigQuotation => [txt "format"; txt "twig-quotation"]
  | HtmlQuotation => [txt "format"; txt "html-quotation"]
  | ValidFilters => [txt "twig"; txt "valid-filters"]
  | ValidTests => [txt "twig"; txt "valid-tests"]
  | ValidFunctions => [txt "twig"; txt "valid-functions"]
  end%string.
Definition variable (s : setting) : text :=
  match s with
  | Version => txt "LUDTWIG_VERSION"
  | ActiveRules => txt "LUDTWIG_GENERAL__ACTIVE_RULES"
  | LineEnding => txt "LUDTWIG_FORMAT__LINE_ENDING"
  | IndentationMode => txt "LUDTWIG_FORMAT__INDENTATION_MODE"
  | IndentationCount => txt "LUDTWIG_FORMAT__INDENTATION_COUNT"
  | IndentChildren => txt "LUDTWIG_FORMAT__INDENT_CHILDREN_OF_BLOCKS"
  | Linebreaks => txt "LUDTWIG_FORMAT__LINEBREAKS_AROUND_BLOCKS"
  | TwigQuotation => txt "LUDTWIG_FORMAT__TWIG_QUOTATION"
  | HtmlQuotation => txt "LUDTWIG_FORMAT__HTML_QUOTATION"
  | ValidFilters => txt "LUDTWIG_TWIG__VALID_FILTERS"
  | ValidTests => txt "LUDTWIG_TWIG__VALID_TESTS"
  | ValidFunctions => txt "LUDTWIG_TWIG__VALID_FUNCTIONS"
  end%string.

(** The value at a path. *)
Fixpoint at_path (p : list text) (v : value) : option value :=
  match p with
  | [] => Some v
  | k :: r => match v with VDict d => match get k d with Some w => at_path r w | None => None end | _ => None end
  end.
(** The same name, apart from upper and lower case. *)
Definition lower (s : text) : text := map to_lower_ascii s.
Definition same_name (a b : text) : bool := text_eqb (lower a) (lower b).

(** The variables are usable: those of the program have neither full stops nor minus signs in
    their names; none stands for a whole section, none for something inside a setting. *)
Definition sections : list text := [txt "LUDTWIG_GENERAL"; txt "LUDTWIG_FORMAT"; txt "LUDTWIG_TWIG"]%string.
Definition inside (name setting_name : text) : Prop :=
  exists a b, name = a ++ txt "__"%string ++ b /\ same_name a setting_name = true.
Definition usable (env : list (text * text)) : Prop :=
  forall name v, In (name, v) env ->
    ~ In 46%N name /\ ~ In 45%N name /\ (forall n, In n sections -> same_name name n = false) /\ (forall s, ~ inside name (variable s)).
(** The sections of a file are tables. *)
Definition tables (file : dict) : Prop :=
  forall k v, In k [txt "general"; txt "format"; txt "twig"]%string -> get k file = Some v -> exists d, v = VDict d.

Section Spec.
  Context (env_value : text -> value) (by_number : Z -> option nat).

  (** The value of the last variable of a setting. *)
  Definition from_env (env : list (text * text)) (s : setting) : option value :=
    match find (fun p => same_name (fst p) (variable s)) (rev env) with Some p => Some (env_value (snd p)) | None => None end.
  (** The environment comes first, then the file, then what is built in. *)
  Definition effective (env : list (text * text)) (file built_in : dict) (s : setting) : option value :=
    match from_env env s with
    | Some v => Some v
    | None => match at_path (place s) (VDict file) with Some v => Some v | None => at_path (place s) (VDict built_in) end
    end.

  (** What the value of a setting means. *)
  Definition chosen {A} (table : list (text * A)) (v : value) (x : A) : Prop :=
    (exists n, v = VStr n /\ In (n, x) table) \/
    (exists n i, v = VNum n /\ by_number n = Some i /\ nth_error (map snd table) i = Some x).
  Definition reads (c : loaded) (s : setting) (v : value) : Prop :=
    let f := ld_config c in
    match s with
    | Version => v = VStr (ld_version c)
    | ActiveRules => v = VArr (map VStr (active_rules f))
    | LineEnding => chosen [(txt "unix_LF", UnixLF); (txt "windows_CRLF", WindowsCRLF)]%string v (cf_line_ending f)
    | IndentationMode => chosen [(txt "space", ISpace); (txt "tab", ITab)]%string v (cf_indentation_mode f)
    | IndentationCount => v = VNum (Z.of_nat (cf_indentation_count f)) /\ cf_indentation_count f <= 255
    | IndentChildren => v = VBool (indent_children_of_blocks f)
    | Linebreaks => v = VBool (linebreaks_around_blocks f)
    | TwigQuotation => chosen [(txt "single", QSingle); (txt "double", QDouble)]%string v (twig_quotation f)
    | HtmlQuotation => chosen [(txt "single", QSingle); (txt "double", QDouble)]%string v (html_quotation f)
    | ValidFilters => v = VArr (map VStr (valid_filters f))
    | ValidTests => v = VArr (map VStr (valid_tests f))
    | ValidFunctions => v = VArr (map VStr (valid_functions f))
    end.
End Spec.

(** * Merging *)
Lemma teqb_refl s : text_eqb s s = true.
Proof. now apply text_eqb_eq. Qed.
Lemma coalesce_dicts a b : coalesce (VDict a) (VDict b) = VDict (merge a b).
Proof. reflexivity. Qed.
Definition joined (a b : dict) : dict := map (fun p => (fst p, match get (fst p) b with Some w => coalesce (snd p) w | None => snd p end)) a.
Lemma merge_eq a b : merge a b = joined a b ++ filter (fun p => negb (has (fst p) a)) b.
Proof.
  unfold merge. cbn [coalesce]. f_equal. induction a as [|[k v] a IH]; [reflexivity|]. cbn [joined map fst snd]. f_equal.
  unfold joined in IH. exact IH.
Qed.
Lemma get_app k a b : get k (a ++ b) = match get k a with Some v => Some v | None => get k b end.
Proof. induction a as [|[k' v] a IH]; [reflexivity|]. cbn [app get]. destruct (text_eqb k' k); [reflexivity|exact IH]. Qed.
Lemma get_joined k a b : get k (joined a b) = match get k a with Some v => Some (match get k b with Some w => coalesce v w | None => v end) | None => None end.
Proof.
  induction a as [|[k' v] a IH]; [reflexivity|]. cbn [joined map fst snd get]. destruct (text_eqb k' k) eqn:E; [|exact IH].
  apply text_eqb_eq in E as ->. reflexivity.
Qed.
Lemma get_filter k a b : get k a = None -> get k (filter (fun p => negb (has (fst p) a)) b) = get k b.
Proof.
  intros N. induction b as [|[k' v] b IH]; [reflexivity|]. cbn [filter fst]. destruct (text_eqb k' k) eqn:E.
  - pose proof E as E'. apply text_eqb_eq in E' as ->. unfold has at 1. rewrite N. cbn [negb get]. now rewrite teqb_refl.
  - cbn [get]. rewrite E. destruct (negb (has k' a)); [|exact IH]. cbn [get]. now rewrite E.
Qed.
Lemma get_merge k a b : get k (merge a b) =
  match get k a, get k b with Some v, Some w => Some (coalesce v w) | Some v, None => Some v | None, x => x end.
Proof.
  rewrite merge_eq, get_app, get_joined. destruct (get k a) as [v|] eqn:E; [destruct (get k b); reflexivity|]. rewrite get_filter by exact E. now destruct (get k b).
Qed.

(** Nothing but maps on the way to a place. *)
Fixpoint open (p : list text) (v : value) : Prop :=
  match p with
  | [] => True
  | k :: r => exists d, v = VDict d /\ forall w, get k d = Some w -> open r w
  end.
(** Equal, or both maps. *)
Definition alike (v w : value) : Prop := v = w \/ exists d e, v = VDict d /\ w = VDict e.
Definition alike_o (v w : option value) : Prop :=
  match v, w with Some x, Some y => alike x y | None, None => True | _, _ => False end.
Lemma alike_refl v : alike v v. Proof. now left. Qed.
Lemma alike_o_refl v : alike_o v v. Proof. destruct v; [apply alike_refl|exact I]. Qed.
Lemma alike_trans u v w : alike u v -> alike v w -> alike u w.
Proof. intros [->|(d & e & -> & ->)] H; [exact H|]. destruct H as [<-|(d' & e' & _ & ->)]; right; eauto. Qed.
Lemma alike_o_trans u v w : alike_o u v -> alike_o v w -> alike_o u w.
Proof. destruct u, v, w; cbn [alike_o]; try tauto. apply alike_trans. Qed.
Lemma coalesce_alike v w : alike (coalesce v w) w.
Proof. destruct v, w; try (left; reflexivity). right. rewrite coalesce_dicts. eauto. Qed.

Lemma at_coalesce : forall p a b, open p a -> open p b ->
  alike_o (at_path p (coalesce a b)) (match at_path p b with Some w => Some w | None => at_path p a end) /\ open p (coalesce a b).
Proof.
  induction p as [|k p IH]; intros a b Ha Hb.
  - cbn [at_path open alike_o]. split; [apply coalesce_alike|exact I].
  - destruct Ha as (da & -> & Ha), Hb as (db & -> & Hb). rewrite coalesce_dicts. cbn [at_path open].
    rewrite get_merge. destruct (get k da) as [v|] eqn:Ea, (get k db) as [w|] eqn:Eb.
    + destruct (IH v w (Ha v eq_refl) (Hb w eq_refl)) as [I1 I2]. split; [exact I1|]. eexists. split; [reflexivity|].
      intros x Hx. rewrite get_merge, Ea, Eb in Hx. injection Hx as <-. exact I2.
    + split; [apply alike_o_refl|]. eexists. split; [reflexivity|]. intros x Hx. rewrite get_merge, Ea, Eb in Hx. now apply Ha.
    + split; [destruct (at_path p w); apply alike_o_refl|]. eexists. split; [reflexivity|]. intros x Hx. rewrite get_merge, Ea, Eb in Hx. now apply Hb.
    + split; [exact I|]. eexists. split; [reflexivity|]. intros x Hx. rewrite get_merge, Ea, Eb in Hx. discriminate Hx.
Qed.

(** A single value at [ks], seen from [p]. *)
Lemma at_nest : forall p ks v, ks <> [] -> p <> [] ->
  (exists q, q <> [] /\ p = ks ++ q) \/ (exists q, q <> [] /\ ks = p ++ q) \/
  (open p (nest ks v) /\ at_path p (nest ks v) = if list_eq_dec (list_eq_dec N.eq_dec) ks p then Some v else None).
Proof.
  induction p as [|k p IH]; intros ks v Nk Np; [congruence|]. destruct ks as [|k' ks]; [congruence|]. cbn [nest open at_path get].
  destruct (text_eqb k' k) eqn:E.
  - apply text_eqb_eq in E as ->. destruct ks as [|k2 ks]; destruct p as [|k3 p].
    + right. right. cbn [nest open at_path]. split; [eexists; split; [reflexivity|]; intros; exact I|].
      destruct (list_eq_dec (list_eq_dec N.eq_dec) [k] [k]); congruence.
    + left. exists (k3 :: p). split; [discriminate|reflexivity].
    + right. left. exists (k2 :: ks). split; [discriminate|reflexivity].
    + destruct (IH (k2 :: ks) v ltac:(discriminate) ltac:(discriminate)) as [(q & Q & E)|[(q & Q & E)|[O A]]].
      * left. exists q. split; [exact Q|]. cbn [app] in *. now rewrite E.
      * right. left. exists q. split; [exact Q|]. cbn [app] in *. now rewrite E.
      * right. right. split.
        -- eexists. split; [reflexivity|]. intros w Hw. cbn [get] in Hw. rewrite teqb_refl in Hw. injection Hw as <-. exact O.
        -- rewrite A. destruct (list_eq_dec (list_eq_dec N.eq_dec) (k2 :: ks) (k3 :: p)) as [E|E], (list_eq_dec (list_eq_dec N.eq_dec) (k :: k2 :: ks) (k :: k3 :: p)) as [E'|E']; try reflexivity; congruence.
  - right. right. split.
    + eexists. split; [reflexivity|]. intros w Hw. cbn [get] in Hw. rewrite E in Hw. discriminate Hw.
    + destruct (list_eq_dec (list_eq_dec N.eq_dec) (k' :: ks) (k :: p)) as [X|X]; [|reflexivity]. exfalso. injection X as -> _. rewrite teqb_refl in E. discriminate E.
Qed.

(** * The names of variables *)
Definition unsplit (s : text) : text :=
  flat_map (fun c => if N.eqb c 46 then [95; 95]%N else if N.eqb c 45 then [95%N] else [c]) s.
Lemma unsplit_split : forall n s, length s <= n -> ~ In 46%N s -> ~ In 45%N s -> unsplit (dashes (split_levels s)) = s.
Proof.
  induction n as [|n IH]; intros s L D M; [destruct s; [reflexivity|cbn in L; lia]|]. destruct s as [|c s]; [reflexivity|].
  assert (N1 : N.eqb c 46 = false) by (apply N.eqb_neq; intros ->; apply D; now left).
  assert (N2 : N.eqb c 45 = false) by (apply N.eqb_neq; intros ->; apply M; now left).
  assert (D' : ~ In 46%N s) by (intros X; apply D; now right). assert (M' : ~ In 45%N s) by (intros X; apply M; now right). cbn in L.
  destruct (N.eqb c 95) eqn:E.
  - apply N.eqb_eq in E as ->. destruct s as [|c2 s]; [reflexivity|]. destruct (N.eqb c2 95) eqn:E2.
    + apply N.eqb_eq in E2 as ->. change (split_levels (95 :: 95 :: s)%N) with (46 :: split_levels s)%N. cbn [dashes map]. cbn [unsplit flat_map N.eqb Pos.eqb app].
      do 2 f_equal. apply IH; [cbn in L; lia| |]; intros X; [apply D'|apply M']; now right.
    + assert (S : split_levels (95%N :: c2 :: s) = 95%N :: split_levels (c2 :: s)).
      { apply N.eqb_neq in E2. clear - E2. cbn [split_levels]. destruct c2 as [|q]; [reflexivity|]. repeat (destruct q as [q|q|]; try reflexivity). congruence. }
      rewrite S. cbn [dashes map N.eqb Pos.eqb]. cbn [unsplit flat_map N.eqb Pos.eqb app]. f_equal. apply IH; [lia|assumption|assumption].
  - assert (S : split_levels (c :: s) = c :: split_levels s).
    { apply N.eqb_neq in E. clear - E. cbn [split_levels]. destruct c as [|q]; [reflexivity|]. repeat (destruct q as [q|q|]; try reflexivity). congruence. }
    rewrite S. cbn [dashes map]. rewrite E. cbn [unsplit flat_map]. rewrite N1, N2. cbn [app]. f_equal. apply IH; [lia|assumption|assumption].
Qed.
Fixpoint join_dots (l : list text) : text :=
  match l with [] => [] | [w] => w | w :: r => w ++ 46%N :: join_dots r end.
Lemma split_dots_cons s : exists w l, split_dots s = w :: l.
Proof. destruct s as [|c s]; cbn [split_dots]; [eauto|]. destruct (N.eqb c 46); [eauto|]. destruct (split_dots s); eauto. Qed.
Lemma join_split s : join_dots (split_dots s) = s.
Proof.
  induction s as [|c s IH]; [reflexivity|]. cbn [split_dots]. destruct (split_dots_cons s) as (w & l & E). rewrite E in *. destruct (N.eqb c 46) eqn:E1.
  - apply N.eqb_eq in E1 as ->. cbn [join_dots] in *. cbn [app]. now rewrite IH.
  - rewrite <- IH. destruct l; reflexivity.
Qed.

Lemma lower_fix k c : (k < 65)%N \/ (122 < k)%N \/ k = 95%N -> N.eqb (to_lower_ascii c) k = N.eqb c k.
Proof.
  intros H. unfold to_lower_ascii, is_upper_ascii, in_range. destruct ((65 <=? c)%N && (c <=? 90)%N) eqn:E; [|reflexivity].
  apply andb_true_iff in E as [E1 E2]. apply N.leb_le in E1, E2. destruct (N.eqb_spec (c + 32) k), (N.eqb_spec c k); try reflexivity; lia.
Qed.
Lemma lower_lower c : to_lower_ascii (to_lower_ascii c) = to_lower_ascii c.
Proof.
  unfold to_lower_ascii, is_upper_ascii, in_range. destruct ((65 <=? c)%N && (c <=? 90)%N) eqn:E; [|now rewrite E].
  apply andb_true_iff in E as [E1 E2]. apply N.leb_le in E1, E2. destruct ((65 <=? c + 32)%N && (c + 32 <=? 90)%N) eqn:F; [|reflexivity].
  apply andb_true_iff in F as [F1 F2]. apply N.leb_le in F1, F2. lia.
Qed.
Lemma unsplit_lower s : unsplit (lower s) = lower (unsplit s).
Proof.
  unfold lower, unsplit. induction s as [|c s IH]; [reflexivity|]. cbn [map flat_map]. rewrite map_app, IH. f_equal.
  rewrite (lower_fix 46), (lower_fix 45) by lia. destruct (N.eqb c 46); [reflexivity|]. destruct (N.eqb c 45); reflexivity.
Qed.
Lemma join_lower l : join_dots (map lower l) = lower (join_dots l).
Proof.
  induction l as [|w l IH]; [reflexivity|]. destruct l as [|w2 l]; [reflexivity|]. change (join_dots (map lower (w :: w2 :: l))) with (lower w ++ 46%N :: join_dots (map lower (w2 :: l))).
  rewrite IH. change (join_dots (w :: w2 :: l)) with (w ++ 46%N :: join_dots (w2 :: l)). symmetry. apply map_app.
Qed.
Lemma strip_prefix_spec : forall p s r, strip_prefix p s = Some r -> exists q, s = q ++ r /\ lower q = lower p.
Proof.
  induction p as [|x p IH]; intros s r H; cbn [strip_prefix] in H; [injection H as ->; exists []; split; reflexivity|].
  destruct s as [|y s]; [discriminate H|]. destruct (N.eqb_spec (to_lower_ascii x) (to_lower_ascii y)) as [E|]; [|discriminate H].
  apply IH in H as (q & -> & Q). exists (y :: q). split; [reflexivity|]. cbn [lower map]. now rewrite E; f_equal.
Qed.
Lemma env_key_name name ks : ~ In 46%N name -> ~ In 45%N name -> env_key name = Some ks ->
  ks <> [] /\ lower name = lower (txt "LUDTWIG_"%string) ++ unsplit (join_dots ks).
Proof.
  intros D M H. unfold env_key in H. destruct (strip_prefix _ name) as [r|] eqn:E; [|discriminate H].
  destruct (existsb _ _); [discriminate H|]. injection H as <-. apply strip_prefix_spec in E as (q & -> & Q). split.
  - destruct (split_dots_cons (dashes (split_levels r))) as (w & l & ->). discriminate.
  - fold lower. rewrite join_lower, join_split, unsplit_lower, (unsplit_split (length r)); [|lia| |].
    + unfold lower at 1. rewrite map_app. f_equal. exact Q.
    + intros X. apply D, in_app_iff. now right.
    + intros X. apply M, in_app_iff. now right.
Qed.

Lemma strip_prefix_lower : forall p s, strip_prefix p (lower s) = option_map lower (strip_prefix p s).
Proof.
  induction p as [|x p IH]; intros s; [reflexivity|]. destruct s as [|y s]; [reflexivity|]. cbn [lower map strip_prefix]. rewrite lower_lower.
  destruct (N.eqb (to_lower_ascii x) (to_lower_ascii y)); [apply IH|reflexivity].
Qed.
Lemma split_levels_cons c s : split_levels (c :: s) =
  if N.eqb c 95 then match s with c2 :: r => if N.eqb c2 95 then 46%N :: split_levels r else c :: split_levels s | [] => [c] end else c :: split_levels s.
Proof.
  destruct (N.eqb_spec c 95) as [->|E].
  - destruct s as [|c2 s]; [reflexivity|]. destruct (N.eqb_spec c2 95) as [->|E2]; [reflexivity|]. cbn [split_levels]. destruct c2 as [|q]; [reflexivity|].
    repeat (destruct q as [q|q|]; try reflexivity). congruence.
  - cbn [split_levels]. destruct c as [|q]; [reflexivity|]. repeat (destruct q as [q|q|]; try reflexivity). congruence.
Qed.
Lemma split_levels_lower : forall n s, length s <= n -> split_levels (lower s) = lower (split_levels s).
Proof.
  induction n as [|n IH]; intros s L; [destruct s; [reflexivity|cbn in L; lia]|]. destruct s as [|c s]; [reflexivity|]. cbn in L. cbn [lower map]. fold (lower s).
  rewrite !split_levels_cons, (lower_fix 95) by lia. destruct (N.eqb c 95).
  - destruct s as [|c2 s]; [reflexivity|]. cbn [lower map]. rewrite (lower_fix 95) by lia. destruct (N.eqb c2 95).
    + cbn [lower map]. f_equal. apply IH. cbn in L. lia.
    + cbn [lower map]. f_equal. apply (IH (c2 :: s)). lia.
  - cbn [lower map]. f_equal. apply IH. lia.
Qed.
Lemma dashes_lower s : dashes (lower s) = lower (dashes s).
Proof.
  unfold dashes, lower. rewrite !map_map. apply map_ext. intros c. rewrite (lower_fix 95) by lia. destruct (N.eqb c 95); reflexivity.
Qed.
Lemma split_dots_lower s : split_dots (lower s) = map lower (split_dots s).
Proof.
  induction s as [|c s IH]; [reflexivity|]. cbn [lower map split_dots]. fold (lower s). rewrite (lower_fix 46) by lia. rewrite IH. destruct (N.eqb c 46); [reflexivity|].
  destruct (split_dots_cons s) as (w & l & ->). reflexivity.
Qed.
Lemma env_key_lower name : env_key (lower name) = env_key name.
Proof.
  unfold env_key. rewrite strip_prefix_lower. destruct (strip_prefix _ name) as [r|]; [|reflexivity]. cbn [option_map].
  rewrite (split_levels_lower (length r)), dashes_lower, split_dots_lower by lia. generalize (split_dots (dashes (split_levels r))). intros l.
  assert (X : forall f, (forall w, f (lower w) = f w) -> existsb f (map lower l) = existsb f l).
  { intros f F. induction l as [|w l IH]; [reflexivity|]. cbn [existsb map]. now rewrite F, IH. }
  rewrite X by (intros [|? ?]; reflexivity).
  match goal with |- (if ?b then _ else _) = _ => destruct b end; [reflexivity|]. f_equal. rewrite map_map. apply map_ext. intros w. unfold lower. rewrite map_map.
  apply map_ext. intros c. apply lower_lower.
Qed.
Lemma env_key_setting name s : same_name name (variable s) = true -> env_key name = Some (place s).
Proof.
  intros H. apply text_eqb_eq in H. rewrite <- env_key_lower, H, env_key_lower. destruct s; vm_compute; reflexivity.
Qed.
Lemma variable_lower s : lower (variable s) = lower (txt "LUDTWIG_"%string) ++ unsplit (join_dots (place s)).
Proof. destruct s; vm_compute; reflexivity. Qed.

(** * The environment *)
Lemma place_parts s : (exists k, place s = [k]) \/ (exists a b, place s = [a; b] /\ In a [txt "general"; txt "format"; txt "twig"]%string).
Proof. destruct s; [left; eauto|right..]; do 2 eexists; (split; [reflexivity|]); cbn [In]; tauto. Qed.
Lemma section_key name a : In a [txt "general"; txt "format"; txt "twig"]%string -> lower name = lower (txt "LUDTWIG_"%string) ++ unsplit a ->
  exists n, In n sections /\ same_name name n = true.
Proof.
  intros Ha E. assert (G : exists n, In n sections /\ lower n = lower (txt "LUDTWIG_"%string) ++ unsplit a).
  { destruct Ha as [<-|[<-|[<-|[]]]]; [exists (txt "LUDTWIG_GENERAL"%string)|exists (txt "LUDTWIG_FORMAT"%string)|exists (txt "LUDTWIG_TWIG"%string)];
      (split; [cbn [In sections]; tauto|vm_compute; reflexivity]). }
  destruct G as (n & Hn & En). exists n. split; [exact Hn|]. unfold same_name. rewrite E, En. apply teqb_refl.
Qed.
Lemma map_app_inv {A B} (f : A -> B) : forall l a b, map f l = a ++ b -> exists l1 l2, l = l1 ++ l2 /\ map f l1 = a /\ map f l2 = b.
Proof.
  induction l as [|x l IH]; intros a b H.
  - symmetry in H. apply app_eq_nil in H as [-> ->]. exists [], []. auto.
  - destruct a as [|y a]; [exists [], (x :: l); auto|]. cbn [map app] in H. injection H as H1 H2. apply IH in H2 as (l1 & l2 & -> & <- & <-).
    exists (x :: l1), l2. cbn [map]. now rewrite H1.
Qed.
Lemma join_app : forall a b, a <> [] -> b <> [] -> join_dots (a ++ b) = join_dots a ++ 46%N :: join_dots b.
Proof.
  induction a as [|w a IH]; intros b Na Nb; [congruence|]. destruct a as [|w2 a].
  - destruct b; [congruence|reflexivity].
  - change (join_dots ((w :: w2 :: a) ++ b)) with (w ++ 46%N :: join_dots ((w2 :: a) ++ b)). rewrite IH by congruence.
    change (join_dots (w :: w2 :: a)) with (w ++ 46%N :: join_dots (w2 :: a)). rewrite <- app_assoc. reflexivity.
Qed.
Lemma lower_underscores s : lower s = txt "__"%string -> s = txt "__"%string.
Proof.
  change (txt "__"%string) with [95; 95]%N. destruct s as [|a [|b [|c s]]]; try discriminate. cbn [lower map]. intros H.
  assert (H1 : to_lower_ascii a = 95%N) by congruence. assert (H2 : to_lower_ascii b = 95%N) by congruence.
  pose proof (lower_fix 95 a ltac:(lia)) as A. pose proof (lower_fix 95 b ltac:(lia)) as B.
  rewrite H1 in A. rewrite H2 in B. symmetry in A, B. apply N.eqb_eq in A, B. subst. reflexivity.
Qed.

Lemma env_at env_value s : forall env, usable env ->
  open (place s) (VDict (env_dict env_value env)) /\
  alike_o (at_path (place s) (VDict (env_dict env_value env))) (from_env env_value env s).
Proof.
  induction env as [|[name v] env IH] using rev_ind; intros U.
  - split; [|destruct s; exact I]. destruct (place s) as [|k p] eqn:E; [exact I|]. eexists. split; [reflexivity|]. intros w X. discriminate X.
  - destruct IH as [O A]. { intros n w Hn. apply (U n w). apply in_app_iff. now left. }
    destruct (U name v) as (D & M & Sec & Ins); [apply in_app_iff; right; now left|].
    unfold env_dict, from_env. rewrite fold_left_app, rev_app_distr. fold (env_dict env_value env). cbn [fold_left rev app find fst snd].
    destruct (same_name name (variable s)) eqn:Sn.
    + rewrite (env_key_setting name s Sn). destruct (at_nest (place s) (place s) (env_value v)) as [(q & Q & X)|[(q & Q & X)|[On An]]]; try (destruct s; discriminate).
      * rewrite <- (app_nil_r (place s)) in X at 1. apply app_inv_head in X. congruence.
      * rewrite <- (app_nil_r (place s)) in X at 1. apply app_inv_head in X. congruence.
      * destruct (list_eq_dec (list_eq_dec N.eq_dec) (place s) (place s)) as [_|X]; [|congruence].
        destruct (nest (place s) (env_value v)) as [| | | |n|] eqn:En; try (destruct s; discriminate En). rewrite <- coalesce_dicts.
        destruct (at_coalesce (place s) _ _ O On) as [C1 C2]. split; [exact C2|]. rewrite An in C1. exact C1.
    + fold (from_env env_value env s). destruct (env_key name) as [ks|] eqn:Ek; [|split; assumption].
      destruct (env_key_name name ks D M Ek) as [Nk Ln].
      destruct (at_nest (place s) ks (env_value v)) as [(q & Q & X)|[(q & Q & X)|[On An]]]; [exact Nk|destruct s; discriminate| | |].
      * (* a section *) exfalso. destruct (place_parts s) as [(k & P)|(a & b & P & Ha)]; rewrite P in X.
        -- destruct ks as [|k1 [|k2 ks]]; [congruence| |]; cbn [app] in X; [|discriminate X]. injection X as _ X. congruence.
        -- destruct ks as [|k1 [|k2 ks]]; [congruence| |]; cbn [app] in X.
           ++ injection X as -> _. destruct (section_key name k1 Ha Ln) as (n & Hn & Same). rewrite (Sec n Hn) in Same. discriminate Same.
           ++ injection X as _ _ X. destruct ks; [cbn [app] in X; congruence|discriminate X].
      * (* inside a setting *) exfalso. apply (Ins s). rewrite X, join_app in Ln; [|destruct s; discriminate|exact Q].
        unfold unsplit in Ln. rewrite flat_map_app in Ln. fold (unsplit (join_dots (place s))) in Ln. cbn [flat_map] in Ln. change (N.eqb 46 46) with true in Ln. cbn iota in Ln.
        rewrite app_assoc, <- variable_lower in Ln. apply map_app_inv in Ln as (n1 & n2 & -> & L1 & L2). apply (map_app_inv _ n2 [95; 95]%N) in L2 as (n3 & n4 & -> & L3 & _).
        exists n1, n4. apply lower_underscores in L3 as ->. split; [reflexivity|]. unfold same_name. fold (lower n1) in L1. rewrite L1. apply teqb_refl.
      * destruct (list_eq_dec (list_eq_dec N.eq_dec) ks (place s)) as [E|_].
        -- exfalso. subst ks. rewrite <- variable_lower in Ln. unfold same_name in Sn. rewrite Ln, teqb_refl in Sn. discriminate Sn.
        -- destruct (nest ks (env_value v)) as [| | | |n|] eqn:En; try (split; assumption). rewrite <- coalesce_dicts.
           destruct (at_coalesce (place s) _ _ O On) as [C1 C2]. split; [exact C2|]. rewrite An in C1. eapply alike_o_trans; eauto.
Qed.

(** * Reading values *)
Section Reading.
  Context (by_number : Z -> option nat).
  Lemma de_text_spec v s : de_text v = Some s <-> v = VStr s.
  Proof. destruct v; cbn [de_text]; split; congruence. Qed.
  Lemma de_bool_spec v b : de_bool v = Some b <-> v = VBool b.
  Proof. destruct v; cbn [de_bool]; split; congruence. Qed.
  Lemma de_u8_spec v n : de_u8 v = Some n <-> v = VNum (Z.of_nat n) /\ n <= 255.
  Proof.
    destruct v; cbn [de_u8]; try (split; [congruence|intros [X _]; congruence]). destruct ((0 <=? n0)%Z && (n0 <=? 255)%Z) eqn:E.
    - apply andb_true_iff in E as [E1 E2]. apply Z.leb_le in E1, E2. split.
      + intros [= <-]. rewrite Z2Nat.id by exact E1. split; [reflexivity|]. lia.
      + intros [[= ->] _]. now rewrite Nat2Z.id.
    - split; [congruence|]. intros [[= ->] L]. exfalso. apply andb_false_iff in E as [E|E]; apply Z.leb_gt in E; lia.
  Qed.
  Lemma de_list_spec : forall l t, de_list l = Some t <-> l = map VStr t.
  Proof.
    induction l as [|v l IH]; intros t; cbn [de_list].
    - destruct t; cbn [map]; split; congruence.
    - destruct (de_text v) as [s|] eqn:E; [apply de_text_spec in E as ->; destruct (de_list l) as [u|] eqn:El|].
      + pose proof (proj1 (IH u) eq_refl) as Eu. split; [intros [= <-]; cbn [map]; congruence|]. destruct t as [|x t]; cbn [map]; [congruence|]. intros [= -> E].
        apply IH in E. congruence.
      + split; [congruence|]. destruct t as [|x t]; cbn [map]; [congruence|]. intros [= -> E]. apply IH in E. congruence.
      + split; [congruence|]. destruct t as [|x t]; cbn [map]; [congruence|]. intros [= -> _]. discriminate E.
  Qed.
  Lemma de_texts_spec v t : de_texts v = Some t <-> v = VArr (map VStr t).
  Proof. destruct v; cbn [de_texts]; try (split; congruence). rewrite de_list_spec. split; congruence. Qed.
  Lemma de_variant_spec {A} (a b : text) (x y : A) v z : text_eqb a b = false ->
    de_variant by_number [a; b] [x; y] v = Some z <-> chosen by_number [(a, x); (b, y)] v z.
  Proof.
    intros N. unfold de_variant, chosen. split.
    - destruct v; try (intros X; discriminate X).
      + intros H. left. exists s. split; [reflexivity|]. cbn [index_of] in H. destruct (text_eqb a s) eqn:E1.
        * apply text_eqb_eq in E1 as ->. cbn in H. injection H as ->. now left.
        * destruct (text_eqb b s) eqn:E2; [|discriminate H]. apply text_eqb_eq in E2 as ->. cbn in H. injection H as ->. right. now left.
      + intros H. right. destruct (by_number n) as [i|] eqn:E; [|discriminate H]. exists n, i. auto.
    - intros [(n & -> & H)|(n & i & -> & E & H)].
      + cbn [index_of]. destruct H as [H|[H|[]]]; injection H as -> ->.
        * rewrite teqb_refl. reflexivity.
        * rewrite N, teqb_refl. reflexivity.
      + rewrite E. exact H.
  Qed.
  Lemma chosen_one {A} table v (x y : A) : NoDup (map fst table) -> chosen by_number table v x -> chosen by_number table v y -> x = y.
  Proof.
    intros ND [(n & -> & H)|(n & i & -> & E & H)] [(n' & E' & H')|(n' & i' & E' & E2 & H')]; try discriminate E'; injection E' as <-.
    - clear - ND H H'. induction table as [|[m z] table IH]; [destruct H|]. inversion ND as [|? ? N1 N2]; subst. cbn [In] in *.
      destruct H as [[= -> ->]|H], H' as [H'|H']; try (injection H'; congruence); auto.
      + exfalso. apply N1. apply in_map_iff. exists (n, y). auto.
      + injection H' as -> ->. exfalso. apply N1. apply in_map_iff. exists (n, x). auto.
    - congruence.
  Qed.
  (** Maps are never read. *)
  Lemma reads_alike c s v w : alike v w -> reads by_number c s v <-> reads by_number c s w.
  Proof.
    intros [->|(d & e & -> & ->)]; [reflexivity|].
    assert (F : forall d, ~ reads by_number c s (VDict d)).
    { intros d0 H. destruct s; cbn [reads] in H; try discriminate H; try (destruct H; discriminate);
        destruct H as [(? & X & _)|(? & ? & X & _)]; discriminate X. }
    split; intros H; exfalso; eapply F, H.
  Qed.

  Lemma at_one k v w : at_path [k] v = Some w -> exists d, v = VDict d /\ get k d = Some w.
  Proof. cbn [at_path]. destruct v; try discriminate. destruct (get k d) eqn:E; [|discriminate]. intros [= <-]. eauto. Qed.
  Lemma at_two a b v w : at_path [a; b] v = Some w -> exists d e, v = VDict d /\ get a d = Some (VDict e) /\ get b e = Some w.
  Proof.
    cbn [at_path]. destruct v; try discriminate. destruct (get a d) as [u|] eqn:E; [|discriminate]. destruct u; try discriminate.
    destruct (get b d0) eqn:F; [|discriminate]. intros [= <-]. eauto.
  Qed.
  Lemma extract_spec m c : (forall s, exists v, at_path (place s) m = Some v) ->
    extract by_number m = Some c <-> forall s v, at_path (place s) m = Some v -> reads by_number c s v.
  Proof.
    intros T.
    destruct (T Version) as (v0 & P0), (T ActiveRules) as (v1 & P1), (T LineEnding) as (v2 & P2), (T IndentationMode) as (v3 & P3),
      (T IndentationCount) as (v4 & P4), (T IndentChildren) as (v5 & P5), (T Linebreaks) as (v6 & P6), (T TwigQuotation) as (v7 & P7),
      (T HtmlQuotation) as (v8 & P8), (T ValidFilters) as (v9 & P9), (T ValidTests) as (v10 & P10), (T ValidFunctions) as (v11 & P11).
    assert (R : (forall s v, at_path (place s) m = Some v -> reads by_number c s v) <->
      (reads by_number c Version v0 /\ reads by_number c ActiveRules v1 /\ reads by_number c LineEnding v2 /\ reads by_number c IndentationMode v3 /\
       reads by_number c IndentationCount v4 /\ reads by_number c IndentChildren v5 /\ reads by_number c Linebreaks v6 /\ reads by_number c TwigQuotation v7 /\
       reads by_number c HtmlQuotation v8 /\ reads by_number c ValidFilters v9 /\ reads by_number c ValidTests v10 /\ reads by_number c ValidFunctions v11)).
    { split; [intros H; do 11 (split; [apply H; assumption|]); apply H; assumption|]. intros (H0 & H1 & H2 & H3 & H4 & H5 & H6 & H7 & H8 & H9 & H10 & H11) s v E.
      destruct s; match goal with H : at_path (place ?k) m = Some ?w, E : at_path (place ?k) m = Some v |- _ => rewrite H in E; apply (f_equal (fun o => match o with Some x => x | None => v end)) in E; rewrite <- E; assumption end. }
    rewrite R. clear R T.
    cbn [place] in *. apply at_one in P0 as (d & -> & G0).
    apply at_two in P1 as (d1 & g & E & Gg & G1). injection E as <-. apply at_two in P2 as (d1 & f & E & Gf & G2). injection E as <-.
    apply at_two in P9 as (d1 & t & E & Gt & G9). injection E as <-.
    repeat match goal with H : at_path [?a; _] (VDict d) = Some ?v |- _ =>
      let d1 := fresh in let e1 := fresh in let E := fresh in let G := fresh in let G' := fresh in
      apply at_two in H as (d1 & e1 & E & G & G'); injection E as <-; first [rewrite Gf in G|rewrite Gt in G]; injection G as <- end.
    unfold extract, field, field_or, de_struct. rewrite G0, Gg, G1, Gf, G2, Gt, G9.
    repeat match goal with H : get _ _ = Some _ |- _ => rewrite H; clear H end.
    cbn [reads]. rewrite <- !de_texts_spec, <- de_text_spec, <- !de_bool_spec, <- de_u8_spec.
    rewrite <- !de_variant_spec by (vm_compute; reflexivity). fold (de_ending by_number v2) (de_mode by_number v3) (de_quotation by_number v7) (de_quotation by_number v8).
    destruct c as [ver [a1 a2 a3 a4 a5 a6 a7 a8 a9 a10 a11]].
    cbn [ld_version ld_config active_rules cf_line_ending cf_indentation_mode cf_indentation_count indent_children_of_blocks linebreaks_around_blocks twig_quotation html_quotation valid_filters valid_tests valid_functions].
    split.
    - intros H. repeat match type of H with match ?x with Some _ => _ | None => None end = Some _ => destruct x eqn:?; [|discriminate H] end.
      injection H as <- <- <- <- <- <- <- <- <- <- <- <-. repeat split; reflexivity.
    - intros (-> & -> & -> & -> & -> & -> & -> & -> & -> & -> & -> & ->). reflexivity.
  Qed.
End Reading.

(** * C64: the environment comes first, then the file, then what is built in *)
Lemma tables_open file s : tables file -> open (place s) (VDict file).
Proof.
  intros T. destruct (place_parts s) as [(k & ->)|(a & b & -> & Ha)]; cbn [open]; eexists; (split; [reflexivity|]); intros w Hw; [exact I|].
  destruct (T a w Ha Hw) as (d & ->). exists d. split; [reflexivity|]. intros; exact I.
Qed.
Lemma built_in_at version s : exists v, at_path (place s) (VDict (built_in_values version)) = Some v.
Proof. destruct s; eexists; reflexivity. Qed.
Lemma built_in_tables version : tables (built_in_values version).
Proof.
  intros k v Hk Hv. destruct Hk as [<-|[<-|[<-|[]]]]; cbn in Hv; injection Hv as <-; eauto.
Qed.

Theorem C64_environment_then_file_then_default_partial : forall toml env_value by_number default_raw version l env file c,
  toml default_raw = Some (built_in_values version) ->
  match found_file l with Some t => toml t | None => Some [] end = Some file ->
  tables file -> usable env ->
  config_new toml env_value by_number default_raw l env = Some c <->
  forall s, exists v, effective env_value env file (built_in_values version) s = Some v /\ reads by_number c s v.
Proof.
  intros toml env_value by_number default_raw version l env file c HB HF HT HU. unfold config_new. rewrite HB, HF. set (b := built_in_values version).
  set (m := coalesce _ _).
  assert (A : forall s, open (place s) m /\ alike_o (at_path (place s) m) (effective env_value env file b s)).
  { intros s. destruct (env_at env_value s env HU) as [Oe Ae].
    assert (O1 : open (place s) (coalesce (VDict []) (VDict b)) /\ alike_o (at_path (place s) (coalesce (VDict []) (VDict b))) (at_path (place s) (VDict b))).
    { destruct (at_coalesce (place s) (VDict []) (VDict b)) as [X1 X2].
      - apply tables_open. intros k v _ Hv. discriminate Hv.
      - apply tables_open, built_in_tables.
      - split; [exact X2|]. destruct (built_in_at version s) as (v & E). fold b in E. rewrite E in *. exact X1. }
    destruct O1 as [O1 A1]. destruct (at_coalesce (place s) _ (VDict file) O1 (tables_open file s HT)) as [A2 O2].
    destruct (at_coalesce (place s) _ (VDict (env_dict env_value env)) O2 Oe) as [A3 O3]. fold m in A3, O3. split; [exact O3|].
    eapply alike_o_trans; [exact A3|]. unfold effective.
    destruct (at_path (place s) (VDict (env_dict env_value env))) as [w|], (from_env env_value env s) as [w'|]; [exact Ae|destruct Ae|destruct Ae|].
    eapply alike_o_trans; [exact A2|]. destruct (at_path (place s) (VDict file)); [apply alike_o_refl|exact A1]. }
  rewrite (extract_spec by_number m c).
  - split.
    + intros H s. destruct (A s) as [_ As]. destruct (built_in_at version s) as (v & Ev). fold b in Ev.
      assert (E : exists w, effective env_value env file b s = Some w).
      { unfold effective. rewrite Ev. destruct (from_env env_value env s); [eauto|]. destruct (at_path (place s) (VDict file)); eauto. }
      destruct E as (w & E). rewrite E in *. destruct (at_path (place s) m) as [u|] eqn:Eu; [|destruct As]. exists w. split; [reflexivity|].
      apply (reads_alike by_number c s u w As). now apply H.
    + intros H s u Eu. destruct (A s) as [_ As]. destruct (H s) as (w & E & R). rewrite E, Eu in As. now apply (reads_alike by_number c s u w As).
  - intros s. destruct (A s) as [_ As]. destruct (built_in_at version s) as (v & Ev). fold b in Ev. destruct (at_path (place s) m) as [u|]; [eauto|]. exfalso.
    unfold effective in As. rewrite Ev in As. destruct (from_env env_value env s); [exact As|]. destruct (at_path (place s) (VDict file)); exact As.
Qed.

(** What is built in stands for the default configuration. *)
Definition plain_env (s : text) : value := VStr s.
Definition some_toml (t : text) : option dict :=
  if text_eqb t (txt "built in"%string) then Some (built_in_values (txt "1"%string))
  else if text_eqb t (txt "width"%string) then Some [(txt "format", VDict [(txt "indentation-count", VNum 2); (txt "twig-quotation", VStr (txt "double"))])]%string
  else if text_eqb t (txt "odd"%string) then Some [(txt "twig", VBool true)]%string
  else if text_eqb t (txt "# version"%string) then Some []
  else None.
Definition no_number (_ : Z) : option nat := None.
Definition load_example l env := config_new some_toml plain_env no_number (txt "built in"%string) l env.
Example C64_case_default : load_example (mkLocation None []) [] = Some (mkLoaded (txt "1"%string) default_config).
Proof. vm_compute. reflexivity. Qed.
Example C64_case_layers : exists c,
  load_example (mkLocation (Some (File (txt "width"%string))) [])
    [(txt "LUDTWIG_FORMAT__TWIG_QUOTATION", txt "single"); (txt "Ludtwig_Format__Html_Quotation", txt "single"); (txt "HOME", txt "x")]%string = Some c /\
  (cf_indentation_count (ld_config c), twig_quotation (ld_config c), html_quotation (ld_config c), cf_line_ending (ld_config c)) = (2, QSingle, QSingle, UnixLF).
Proof. eexists. split; vm_compute; reflexivity. Qed.
Example C64_case_hypotheses : tables [(txt "format", VDict [])]%string /\ usable [(txt "LUDTWIG_FORMAT__TWIG_QUOTATION", txt "single"); (txt "HOME", txt "x")]%string.
Proof.
  split.
  - intros k v _ H. cbn [get] in H. destruct (text_eqb (txt "format"%string) k); [injection H as <-; eauto|discriminate H].
  - assert (NI : forall name s, (forall a b, name = a ++ txt "__"%string ++ b -> length a = 14) -> length (variable s) <> 14 -> ~ inside name (variable s)).
    { intros name s H L (a & b & E & X). apply H in E. apply text_eqb_eq in X. apply (f_equal (@List.length N)) in X. unfold lower in X. rewrite !map_length in X. congruence. }
    assert (L : forall s, length (variable s) <> 14) by (intros s; destruct s; vm_compute; discriminate).
    intros name v [H|[H|[]]]; injection H as <- <-; (split; [|split; [|split]]).
    + cbv. intros X. repeat destruct X as [X|X]; try discriminate X. exact X.
    + cbv. intros X. repeat destruct X as [X|X]; try discriminate X. exact X.
    + intros n [<-|[<-|[<-|[]]]]; vm_compute; reflexivity.
    + intros s. apply NI; [|apply L]. intros a b E. cbn [txt app] in E.
      do 14 (destruct a as [|? a]; [discriminate E|cbn [app] in E; injection E as _ E]). destruct a as [|? a]; [reflexivity|]. exfalso.
      cbn [app] in E. injection E as _ E. do 16 (destruct a as [|? a]; [discriminate E|cbn [app] in E; first [discriminate E|injection E as _ E]]).
    + cbv. intros X. repeat destruct X as [X|X]; try discriminate X. exact X.
    + cbv. intros X. repeat destruct X as [X|X]; try discriminate X. exact X.
    + intros n [<-|[<-|[<-|[]]]]; vm_compute; reflexivity.
    + intros s. apply NI; [|apply L]. intros a b E. exfalso. cbn [txt app] in E.
      do 4 (destruct a as [|? a]; [discriminate E|cbn [app] in E; injection E as _ E]). destruct a; discriminate E.
Qed.
(** A file in which twig is no table: with a variable for one of its settings, the other lists
    are empty instead of the built-in ones. *)
Definition list_env (s : text) : value := VArr [VStr s].
Theorem C64_environment_then_file_then_default_refuted :
  ~ (forall toml env_value by_number default_raw version l env file c,
       toml default_raw = Some (built_in_values version) ->
       match found_file l with Some t => toml t | None => Some [] end = Some file ->
       usable env ->
       config_new toml env_value by_number default_raw l env = Some c ->
       forall s, exists v, effective env_value env file (built_in_values version) s = Some v /\ reads by_number c s v).
Proof.
  intros X. pose (env := [(txt "LUDTWIG_TWIG__VALID_FILTERS", txt "a")]%string).
  destruct (config_new some_toml list_env no_number (txt "built in"%string) (mkLocation (Some (File (txt "odd"%string))) []) env) as [c|] eqn:E; [|vm_compute in E; discriminate E].
  specialize (X some_toml list_env no_number (txt "built in"%string) (txt "1"%string) (mkLocation (Some (File (txt "odd"%string))) []) env [(txt "twig", VBool true)]%string c).
  destruct X with (s := ValidTests) as (v & E1 & E2).
  - vm_compute. reflexivity.
  - vm_compute. reflexivity.
  - intros name v [H|[]]. injection H as <- <-. split; [|split; [|split]].
    + cbv. intros X'. repeat destruct X' as [X'|X']; try discriminate X'. exact X'.
    + cbv. intros X'. repeat destruct X' as [X'|X']; try discriminate X'. exact X'.
    + intros n [<-|[<-|[<-|[]]]]; vm_compute; reflexivity.
    + intros s (a & b & E1 & E2). apply text_eqb_eq in E2. apply (f_equal (@List.length N)) in E2. unfold lower in E2. rewrite !map_length in E2.
      assert (L : length a = 12).
      { cbn [txt app] in E1. do 12 (destruct a as [|? a]; [discriminate E1|cbn [app] in E1; injection E1 as _ E1]). destruct a as [|? a]; [reflexivity|]. exfalso.
        cbn [app] in E1. injection E1 as _ E1. do 15 (destruct a as [|? a]; [discriminate E1|cbn [app] in E1; first [discriminate E1|injection E1 as _ E1]]). }
      rewrite L in E2. destruct s; vm_compute in E2; discriminate E2.
  - exact E.
  - vm_compute in E1. apply (f_equal (fun o => match o with Some x => x | None => VNum 0 end)) in E1. cbn [reads] in E2.
    assert (T : valid_tests (ld_config c) = []). { vm_compute in E. injection E as <-. reflexivity. }
    rewrite T in E2. rewrite E2 in E1. discriminate E1.
Qed.

(** * C65: creating a configuration file *)
Fixpoint distinct (v : value) : Prop :=
  match v with
  | VDict d => NoDup (map fst d) /\ (fix all (l : list (text * value)) : Prop := match l with [] => True | (_, w) :: r => distinct w /\ all r end) d
  | _ => True
  end.
Lemma get_in k v : forall d, NoDup (map fst d) -> In (k, v) d -> get k d = Some v.
Proof.
  induction d as [|[k' v'] d IH]; intros N H; [destruct H|]. inversion N as [|? ? N1 N2]; subst. cbn [get]. destruct H as [[= -> ->]|H].
  - now rewrite teqb_refl.
  - destruct (text_eqb k' k) eqn:E; [|auto]. exfalso. apply text_eqb_eq in E as ->. apply N1, in_map_iff. exists (k, v). auto.
Qed.
Lemma coalesce_same : forall v, distinct v -> coalesce v v = v.
Proof.
  fix same 1. intros v. destruct v as [| | | |d|]; try reflexivity. intros [N A].
  assert (F : Forall (fun p => distinct (snd p) -> coalesce (snd p) (snd p) = snd p) d).
  { clear N A. exact ((fix go (l : list (text * value)) : Forall (fun p => distinct (snd p) -> coalesce (snd p) (snd p) = snd p) l :=
      match l with [] => Forall_nil _ | (k, w) :: r => Forall_cons (k, w) (same w) (go r) end) d). }
  clear same.
  rewrite coalesce_dicts, merge_eq. f_equal.
  assert (E1 : filter (fun p => negb (has (fst p) d)) d = []).
  { assert (G : forall l, incl l d -> filter (fun p => negb (has (fst p) d)) l = []).
    { induction l as [|[k w] l IH]; intros I; [reflexivity|]. cbn [filter fst]. unfold has at 1. rewrite (get_in k w d N (I _ (or_introl eq_refl))). cbn [negb].
      apply IH. intros x Hx. apply I. now right. }
    apply G. intros x Hx. exact Hx. }
  rewrite E1, app_nil_r. assert (G : forall l, incl l d -> (fix all (l : list (text * value)) : Prop := match l with [] => True | (_, w) :: r => distinct w /\ all r end) l -> Forall (fun p => distinct (snd p) -> coalesce (snd p) (snd p) = snd p) l -> joined l d = l).
  { induction l as [|[k w] l IH]; intros I D Fl; [reflexivity|]. destruct D as [D1 D2]. inversion Fl as [|? ? F1 F2]; subst. cbn [snd] in F1. cbn [joined map fst snd].
    rewrite (get_in k w d N (I _ (or_introl eq_refl))), (F1 D1). f_equal. apply IH; auto. intros x Hx. apply I. now right. }
  apply G; auto. intros x Hx. exact Hx.
Qed.
Theorem C65_created_file_changes_nothing : forall toml env_value by_number default_raw d program_version verbose l env t,
  toml default_raw = Some d -> distinct (VDict d) ->
  written (handle_config toml env_value by_number default_raw program_version true verbose l env) = Some t ->
  here l = None /\
  config_new toml env_value by_number default_raw (mkLocation (Some (File t)) (above l)) env
  = config_new toml env_value by_number default_raw (mkLocation None []) env.
Proof.
  intros toml env_value by_number default_raw d pv vb l env t HB HD HW. unfold handle_config in HW. destruct (here l); [discriminate HW|]. injection HW as <-.
  split; [reflexivity|]. unfold config_new, found_file. cbn [here above flat_map app]. rewrite HB. f_equal.
  assert (E : coalesce (VDict []) (VDict d) = VDict d).
  { rewrite coalesce_dicts, merge_eq. cbn [joined map app]. f_equal. clear. induction d as [|p d IH]; [reflexivity|]. cbn [filter has get negb]. f_equal. exact IH. }
  rewrite E, (coalesce_same (VDict d) HD).
  assert (E2 : coalesce (VDict d) (VDict []) = VDict d).
  { rewrite coalesce_dicts, merge_eq. cbn [filter]. rewrite app_nil_r. f_equal. unfold joined. clear. induction d as [|[k v] d IH]; [reflexivity|]. cbn [map fst snd get]. f_equal. exact IH. }
  now rewrite E2.
Qed.

(** An existing file is never overwritten; without the option nothing is written. *)
Theorem C65_nothing_is_overwritten : forall toml env_value by_number default_raw program_version create verbose l env t,
  written (handle_config toml env_value by_number default_raw program_version create verbose l env) = Some t ->
  create = true /\ here l = None /\ outcome (handle_config toml env_value by_number default_raw program_version create verbose l env) = inl 0.
Proof.
  intros toml env_value by_number default_raw pv create vb l env t. unfold handle_config. destruct create.
  - destruct (here l); [discriminate|auto].
  - destruct (config_new _ _ _ _ _ _); discriminate.
Qed.
Example C65_case : written (handle_config some_toml plain_env no_number (txt "built in"%string) (txt "1"%string) true false (mkLocation None []) []) = Some (txt "built in"%string).
Proof. reflexivity. Qed.
Lemma C65_case_distinct : distinct (VDict (built_in_values (txt "1"%string))).
Proof.
  cbn [distinct built_in_values map fst].
  repeat match goal with |- NoDup _ => constructor | |- ~ In _ _ => cbv; intros X; repeat (destruct X as [X|X]; [discriminate X|]); exact X | |- _ /\ _ => split | |- True => exact I end.
Qed.

(** * C66: what is said about the configuration *)
(** No configuration above the current directory, no directory in place of the file. *)
Definition simple_location (l : location) : Prop :=
  here l <> Some Directory /\ forall e, In e (above l) -> e = None \/ e = Some Directory.
Theorem C66_used_file_is_announced_partial : forall toml env_value by_number default_raw program_version verbose l env c,
  simple_location l ->
  let h := handle_config toml env_value by_number default_raw program_version false verbose l env in
  outcome h = inr c ->
  (In UsingDefault (messages h) -> config_new toml env_value by_number default_raw (mkLocation None []) env = Some c) /\
  (In LoadedFile (messages h) <-> exists t, here l = Some (File t)) /\ (In LoadedFile (messages h) \/ In UsingDefault (messages h)).
Proof.
  intros toml env_value by_number default_raw pv vb l env c [S1 S2] h HO. unfold h, handle_config in *. clear h.
  destruct (config_new toml env_value by_number default_raw l env) as [c'|] eqn:E; [|discriminate HO]. cbn [outcome messages] in *. injection HO as ->.
  assert (No : forall x, In x (flat_map (fun p : text * text => if starts_with (txt "LUDTWIG_"%string) (fst p) then [FoundVariable (fst p)] else []) env ++
      (if negb (text_eqb (ld_version c) pv) then [VersionDiffers (ld_version c)]
       else if negb (match match here l with Some (File t) => t | _ => [] end with [] => true | _ => false end) && negb (contains (txt "version"%string) match here l with Some (File t) => t | _ => [] end)
            then [VersionUnknown] else []) ++ (if vb then [UsedValues] else [])) -> x <> LoadedFile /\ x <> UsingDefault).
  { intros x Hx. apply in_app_iff in Hx as [Hx|Hx].
    - apply in_flat_map in Hx as (p & _ & Hx). destruct (starts_with _ _); [|destruct Hx]. destruct Hx as [<-|[]]. split; discriminate.
    - apply in_app_iff in Hx as [Hx|Hx].
      + destruct (negb (text_eqb _ _)); [destruct Hx as [<-|[]]; split; discriminate|]. destruct (_ && _); [destruct Hx as [<-|[]]; split; discriminate|destruct Hx].
      + destruct vb; [destruct Hx as [<-|[]]; split; discriminate|destruct Hx]. }
  destruct (here l) as [[t|]|] eqn:H; [|congruence|]; cbn [app]; split.
  - intros [X|X]; [discriminate X|]. apply No in X as [_ X]. congruence.
  - split; [|left; now left]. split; [intros _; eauto|]. intros _. now left.
  - intros _. rewrite <- E. unfold config_new. replace (found_file l) with (found_file (mkLocation None [])); [reflexivity|].
    unfold found_file. cbn [here above flat_map app]. rewrite H. cbn [app]. replace (flat_map _ (above l)) with (@nil text); [reflexivity|].
    symmetry. clear - S2. induction (above l) as [|e r IH]; [reflexivity|]. cbn [flat_map]. rewrite IH by (intros x Hx; apply S2; now right).
    destruct (S2 e (or_introl eq_refl)) as [->| ->]; reflexivity.
  - split; [|right; now left]. split.
    + intros [X|X]; [discriminate X|]. apply No in X as [X _]. congruence.
    + intros (t & X). discriminate X.
Qed.
Theorem C66_used_file_is_announced_refuted :
  ~ (forall toml env_value by_number default_raw program_version verbose l env c,
       let h := handle_config toml env_value by_number default_raw program_version false verbose l env in
       outcome h = inr c -> In UsingDefault (messages h) ->
       config_new toml env_value by_number default_raw (mkLocation None []) env = Some c).
Proof.
  intros X. destruct (load_example (mkLocation None [Some (File (txt "width"%string))]) []) as [c|] eqn:E; [|vm_compute in E; discriminate E].
  specialize (X some_toml plain_env no_number (txt "built in"%string) (txt "1"%string) false (mkLocation None [Some (File (txt "width"%string))]) [] c).
  cbv zeta in X. unfold load_example in E. unfold handle_config in X. rewrite E in X. specialize (X eq_refl (or_introl eq_refl)).
  assert (A : cf_indentation_count (ld_config c) = 2) by (vm_compute in E; injection E as <-; reflexivity).
  assert (B : cf_indentation_count (ld_config c) = 4) by (clear E A; vm_compute in X; injection X as <-; reflexivity).
  rewrite A in B. discriminate B.
Qed.

(** The variables that are not announced have no effect, if the prefix is written in upper case. *)
Definition announced (p : text * text) : bool := starts_with (txt "LUDTWIG_"%string) (fst p).
Lemma strip_starts : forall p s, starts_with p s = false -> (forall q r, s = q ++ r -> lower q = lower p -> q = p) -> strip_prefix p s = None.
Proof.
  intros p s H U. destruct (strip_prefix p s) as [r|] eqn:E; [|reflexivity]. exfalso. apply strip_prefix_spec in E as (q & -> & L).
  rewrite (U q r eq_refl L) in H. clear - H. induction p as [|x p IH]; [discriminate H|]. cbn [app starts_with] in H. rewrite N.eqb_refl in H. auto.
Qed.
Theorem C66_used_variables_are_announced_partial : forall toml env_value by_number default_raw program_version verbose l env c,
  (forall name v q r, In (name, v) env -> name = q ++ r -> lower q = lower (txt "LUDTWIG_"%string) -> q = txt "LUDTWIG_"%string) ->
  let h := handle_config toml env_value by_number default_raw program_version false verbose l env in
  outcome h = inr c ->
  (forall name, In (FoundVariable name) (messages h) <-> exists v, In (name, v) (filter announced env)) /\
  config_new toml env_value by_number default_raw l (filter announced env) = Some c.
Proof.
  intros toml env_value by_number default_raw pv vb l env c U h HO. unfold h, handle_config in *. clear h.
  destruct (config_new toml env_value by_number default_raw l env) as [c'|] eqn:E; [|discriminate HO]. cbn [outcome messages] in *. injection HO as ->. split.
  - intros name. cbn [app]. split.
    + intros [X|X]; [destruct (here l); discriminate X|]. apply in_app_iff in X as [X|X].
      * apply in_flat_map in X as ([n v] & Hn & X). cbn [fst] in X. destruct (starts_with _ n) eqn:S; [|destruct X]. destruct X as [[= ->]|[]].
        exists v. apply filter_In. split; [exact Hn|exact S].
      * exfalso. apply in_app_iff in X as [X|X].
        -- destruct (negb (text_eqb _ _)); [destruct X as [X|[]]; discriminate X|]. destruct (_ && _); [destruct X as [X|[]]; discriminate X|destruct X].
        -- destruct vb; [destruct X as [X|[]]; discriminate X|destruct X].
    + intros (v & Hv). apply filter_In in Hv as [Hv S]. right. apply in_app_iff. left. apply in_flat_map. exists (name, v). split; [exact Hv|].
      unfold announced in S. rewrite S. now left.
  - rewrite <- E. unfold config_new. replace (env_dict env_value (filter announced env)) with (env_dict env_value env); [reflexivity|].
    unfold env_dict. generalize (@nil (text * value)) as d. clear E. induction env as [|[n v] env IH]; intros d; [reflexivity|].
    assert (U' : forall name v q r, In (name, v) env -> name = q ++ r -> lower q = lower (txt "LUDTWIG_"%string) -> q = txt "LUDTWIG_"%string)
      by (intros n' v' q r Hi; apply (U n' v' q r); now right).
    cbn [filter fold_left]. destruct (announced (n, v)) eqn:A; [cbn [fold_left]; apply IH, U'|].
    cbn [fst snd]. assert (K : env_key n = None).
    { unfold env_key. rewrite strip_starts; [reflexivity|exact A|]. intros q r Q. apply (U n v q r (or_introl eq_refl) Q). }
    rewrite K. apply IH, U'.
Qed.
Theorem C66_used_variables_are_announced_refuted :
  ~ (forall toml env_value by_number default_raw program_version verbose l env c,
       let h := handle_config toml env_value by_number default_raw program_version false verbose l env in
       outcome h = inr c -> (forall name, ~ In (FoundVariable name) (messages h)) ->
       config_new toml env_value by_number default_raw l [] = Some c).
Proof.
  intros X. pose (env := [(txt "ludtwig_format__html_quotation", txt "single")]%string).
  destruct (load_example (mkLocation None []) env) as [c|] eqn:E; [|vm_compute in E; discriminate E].
  specialize (X some_toml plain_env no_number (txt "built in"%string) (txt "1"%string) false (mkLocation None []) env c).
  assert (A : html_quotation (ld_config c) = QSingle) by (vm_compute in E; injection E as <-; reflexivity).
  assert (V : text_eqb (ld_version c) (txt "1"%string) = true) by (vm_compute in E; injection E as <-; reflexivity).
  cbv zeta in X. unfold load_example in E. unfold handle_config in X. rewrite E in X.
  assert (Y : config_new some_toml plain_env no_number (txt "built in"%string) (mkLocation None []) [] = Some c).
  { apply X; [reflexivity|]. intros name Hn. cbn [messages here] in Hn. rewrite V in Hn. vm_compute in Hn. destruct Hn as [Hn|[]]. discriminate Hn. }
  assert (B : html_quotation (ld_config c) = QDouble) by (clear E A V X; vm_compute in Y; injection Y as <-; reflexivity).
  rewrite A in B. discriminate B.
Qed.

(** A file of another version of the program is pointed out. *)
Theorem C66_other_version_is_pointed_out_partial : forall toml env_value by_number default_raw program_version verbose l env file version c,
  toml default_raw = Some (built_in_values program_version) ->
  match found_file l with Some t => toml t | None => Some [] end = Some file -> tables file -> usable env ->
  (forall name v, In (name, v) env -> same_name name (variable Version) = false) ->
  get (txt "version"%string) file = Some (VStr version) -> version <> program_version ->
  let h := handle_config toml env_value by_number default_raw program_version false verbose l env in
  outcome h = inr c -> In (VersionDiffers version) (messages h).
Proof.
  intros toml env_value by_number default_raw pv vb l env file version c HB HF HT HU HV Hv Hn h HO. unfold h, handle_config in *. clear h.
  destruct (config_new toml env_value by_number default_raw l env) as [c'|] eqn:E; [|discriminate HO]. cbn [outcome messages] in *. injection HO as ->.
  apply (C64_environment_then_file_then_default_partial toml env_value by_number default_raw pv l env file c HB HF HT HU) with (s := Version) in E.
  destruct E as (v & E1 & E2). cbn [reads] in E2. unfold effective in E1.
  replace (from_env env_value env Version) with (@None value) in E1.
  - cbn [place at_path] in E1. rewrite Hv in E1. injection E1 as <-. injection E2 as ->. cbn [app]. right. apply in_app_iff. right. apply in_app_iff. left.
    destruct (text_eqb (ld_version c) pv) eqn:T; [apply text_eqb_eq in T; congruence|]. now left.
  - unfold from_env. destruct (find _ (rev env)) as [[n w]|] eqn:F; [|reflexivity]. exfalso. apply find_some in F as [F1 F2]. apply in_rev in F1.
    cbn [fst] in F2. rewrite (HV n w F1) in F2. discriminate F2.
Qed.
(** A file that states no version is not pointed out if the word occurs in it otherwise. *)
Theorem C66_other_version_is_pointed_out_refuted :
  ~ (forall toml env_value by_number default_raw program_version verbose l env file c,
       toml default_raw = Some (built_in_values program_version) ->
       (exists t, here l = Some (File t) /\ toml t = Some file) -> get (txt "version"%string) file <> Some (VStr program_version) ->
       let h := handle_config toml env_value by_number default_raw program_version false verbose l env in
       outcome h = inr c -> In VersionUnknown (messages h) \/ exists v, In (VersionDiffers v) (messages h)).
Proof.
  intros X. destruct (load_example (mkLocation (Some (File (txt "# version"%string))) []) []) as [c|] eqn:E; [|vm_compute in E; discriminate E].
  specialize (X some_toml plain_env no_number (txt "built in"%string) (txt "1"%string) false (mkLocation (Some (File (txt "# version"%string))) []) [] [] c).
  assert (V : text_eqb (ld_version c) (txt "1"%string) = true) by (vm_compute in E; injection E as <-; reflexivity).
  cbv zeta in X. unfold load_example in E. unfold handle_config in X. rewrite E in X. cbn [messages here outcome] in X. rewrite V in X.
  destruct X as [H|(v & H)].
  - reflexivity.
  - exists (txt "# version"%string). split; reflexivity.
  - discriminate.
  - reflexivity.
  - vm_compute in H. destruct H as [H|[]]. discriminate H.
  - vm_compute in H. destruct H as [H|[]]. discriminate H.
Qed.
Example C66_case : exists c, handle_config some_toml plain_env no_number (txt "built in"%string) (txt "2"%string) false true (mkLocation (Some (File (txt "width"%string))) []) [(txt "LUDTWIG_VERSION", txt "3")]%string
  = mkHandled [LoadedFile; FoundVariable (txt "LUDTWIG_VERSION"); VersionDiffers (txt "3"); UsedValues]%string None (inr c).
Proof. eexists. vm_compute. reflexivity. Qed.

Print Assumptions C64_environment_then_file_then_default_partial.
Print Assumptions C64_environment_then_file_then_default_refuted.
Print Assumptions C65_created_file_changes_nothing.
Print Assumptions C65_nothing_is_overwritten.
Print Assumptions C66_used_file_is_announced_partial.
Print Assumptions C66_used_file_is_announced_refuted.
Print Assumptions C66_used_variables_are_announced_partial.
Print Assumptions C66_used_variables_are_announced_refuted.
Print Assumptions C66_other_version_is_pointed_out_partial.
Print Assumptions C66_other_version_is_pointed_out_refuted.
