(** * C86: well-formed templates can be put together

    Property theorems: templates on lines of their own can be put one after another, and into
    tags and elements, and are accepted then.  The grammar of well-formed templates is that of
    AccSpec (C61). *)
From Coq Require Import NArith String Bool Arith Lia List.
Import ListNotations.
From Verif Require Import Text Kind Regex Lexer LexerProofs PropLexer ParserApi Machine PropByLine AccSpec Respell PropAccept PropRespell.
Local Notation length := List.length (only parsing).
Local Open Scope list_scope.

(** The tokens of a text without white space; well-formed texts (C61). *)
Definition tokens (s : text) : list token := nontriv (lex s).
Definition well_formed (s : text) : Prop := template (tokens s).
(** A text that ends with the end of a line. *)
Definition whole_lines (s : text) : Prop := exists a, s = a ++ [nl].
(** A text for lines of its own: whole lines, the first one not empty. *)
Definition own_lines (s : text) : Prop := whole_lines s /\ ~ begins_with_line_break s.

(** The text [o] opens something that the text [c] closes. *)
Inductive encloses (o c : text) : Prop :=
| enc_paired k i e E j : paired_tag InBody k i e E -> tag [k] i (tokens o) -> E j -> tag [e] j (tokens c) -> encloses o c
| enc_if b x : expr b x -> tag [TK_IF] x (tokens o) -> tag [TK_ENDIF] [] (tokens c) -> encloses o c
| enc_for i : for_inside i -> tag [TK_FOR] i (tokens o) -> tag [TK_ENDFOR] [] (tokens c) -> encloses o c
| enc_element l n a g s m r : tokens o = l :: n :: a ++ [g] -> is [TK_LESS_THAN] l -> tk_end l = tk_start n -> tag_name n ->
    content InAttributes a -> is [TK_GREATER_THAN] g -> ~ In (lower n) VOID -> ~ In (lower n) RAW ->
    tokens c = [s; m; r] -> is [TK_LESS_THAN_SLASH] s -> tk_kind m = tk_kind n -> tk_text m = tk_text n -> is [TK_GREATER_THAN] r ->
    encloses o c.

(** * Proofs *)
Lemma nontriv_app x y : nontriv (x ++ y) = nontriv x ++ nontriv y.
Proof. apply filter_app. Qed.
Lemma nontriv_moved d l : nontriv (map (moved d) l) = map (moved d) (nontriv l).
Proof. induction l as [|t l IH]; [reflexivity|]. unfold nontriv in *. cbn [map filter]. unfold moved at 1. cbn [tk_kind]. destruct (negb _); cbn [map]; now rewrite IH. Qed.
Lemma tokens_joined s b : whole_lines s -> ~ begins_with_line_break b -> tokens (s ++ b) = tokens s ++ map (moved (blen s)) (tokens b).
Proof.
  intros (a & ->) Nb. unfold tokens. rewrite <- app_assoc. cbn [app]. now rewrite (C85_lines_are_read_one_by_one a b Nb), nontriv_app, nontriv_moved.
Qed.
Lemma alike_moved d t : alike t (moved d t).
Proof. left. split; reflexivity. Qed.
Lemma respelled_moved d l : respelled l (map (moved d) l).
Proof.
  induction l as [|t l IH]; [constructor|]. destruct l as [|u l]; [constructor; apply alike_moved|]. cbn [map] in *. constructor; [apply alike_moved| |exact IH].
  intros _ E. unfold moved. cbn [tk_end tk_start]. now rewrite E.
Qed.
Lemma content_app f x : content f x -> forall y, content f y -> content f (x ++ y).
Proof. induction 1 as [|f x l I _ IH]; intros y H; [exact H|]. rewrite <- app_assoc. constructor; [exact I|now apply IH]. Qed.
Lemma template_moved d l : template l -> template (map (moved d) l).
Proof. intros H. exact (template_respelled _ _ H (respelled_moved d l)). Qed.

Lemma begins_own a b : own_lines a -> ~ begins_with_line_break (a ++ b).
Proof.
  intros ((a' & ->) & N) (r & [E|E]); apply N; destruct a' as [|x [|y a']]; cbn [app] in *.
  - exists []. now left.
  - injection E as -> _. exists [nl]. now left.
  - injection E as -> _. eexists. left. reflexivity.
  - injection E as E _. discriminate E.
  - injection E as -> E. exists []. now right.
  - injection E as -> -> _. eexists. right. reflexivity.
Qed.

Lemma joined a b : whole_lines a -> ~ begins_with_line_break b -> well_formed a -> well_formed b -> well_formed (a ++ b).
Proof. intros W N A B. unfold well_formed. rewrite (tokens_joined a b W N). apply content_app; [exact A|now apply template_moved]. Qed.

(** One after another. *)
Theorem C86_one_after_another : forall l, Forall (fun s => own_lines s /\ well_formed s) l ->
  well_formed (concat l) /\ forall dbg, exists t, parse_src dbg (concat l) = OK (t, []).
Proof.
  intros l H. assert (G : well_formed (concat l) /\ ~ begins_with_line_break (concat l)).
  { induction H as [|s l [O W] _ [IH N]]; cbn [concat].
    - split; [constructor|]. intros (r & [E|E]); discriminate E.
    - split; [apply joined; [exact (proj1 O)|exact N|exact W|exact IH]|now apply begins_own]. }
  split; [exact (proj1 G)|]. intros dbg. exact (C61_well_formed_templates_are_accepted dbg _ (proj1 G)).
Qed.

Lemma end_moved k e i E d j : paired_tag InBody k i e E -> E j -> E (map (moved d) j).
Proof.
  assert (X : forall w j, optional (fun l => exists m, l = [m] /\ is [TK_WORD] m /\ tk_text m = w) j -> optional (fun l => exists m, l = [m] /\ is [TK_WORD] m /\ tk_text m = w) (map (moved d) j)).
  { intros w l [-> |(m & -> & M)]; [now left|]. right. exists (moved d m). auto. }
  intros H. destruct H; intros Hj; try (subst j; reflexivity); exact (X _ _ Hj).
Qed.
Lemma tag_moved kw i l d : tag kw i l -> tag kw (map (moved d) i) (map (moved d) l).
Proof. intros (o & k & c & -> & H1 & H2 & H3). exists (moved d o), (moved d k), (moved d c). cbn [map]. rewrite map_app. auto. Qed.

(** Inside of a tag or an element. *)
Theorem C86_inside_of_something : forall o a c, whole_lines o -> own_lines a -> ~ begins_with_line_break c ->
  encloses o c -> well_formed a -> well_formed (o ++ a ++ c) /\ forall dbg, exists t, parse_src dbg (o ++ a ++ c) = OK (t, []).
Proof.
  intros o a c Wo Oa Nc En A.
  assert (G : well_formed (o ++ a ++ c)).
  { unfold well_formed. rewrite (tokens_joined o (a ++ c) Wo (begins_own a c Oa)), (tokens_joined a c (proj1 Oa) Nc), map_app.
    pose proof (template_moved (blen o) _ A) as A'. fold (tokens a) in A'. revert A'. generalize (map (moved (blen o)) (tokens a)). intros m A'.
    assert (Z : map (moved (blen o)) (map (moved (blen a)) (tokens c)) = map (moved (blen o + blen a)) (tokens c)) by apply moved_moved. rewrite Z. generalize (blen o + blen a). intros d.
    assert (S : forall l, block InBody l -> template l).
    { intros l B. rewrite <- (app_nil_r l). constructor; [now apply item_statement, statement_block|constructor]. }
    destruct En as [k i e E j P T Hj T'|b x X T T'|i F T T'|l n at_ g s m' r Eo H1 H2 H3 H4 H5 H6 H7 Ec H8 H9 H10 H11].
    - apply S. eapply block_paired; [exact P|exact T|exact A'|exact (end_moved _ _ _ _ d _ P Hj)|now apply tag_moved].
    - apply S. eapply block_if; [exact X|exact T|]. apply branches_end; [exact A'|exact (tag_moved _ _ _ d T')].
    - apply S. eapply block_for; [exact F|exact T|exact A'|exact (tag_moved _ _ _ d T')].
    - rewrite Eo, Ec. cbn [map]. replace ((l :: n :: at_ ++ [g]) ++ m ++ [moved d s; moved d m'; moved d r]) with (l :: n :: at_ ++ g :: m ++ [moved d s; moved d m'; moved d r]) by (cbn [app]; now rewrite <- app_assoc).
      rewrite <- (app_nil_r (l :: _)). constructor; [|constructor]. now apply item_element. }
  split; [exact G|]. intros dbg. exact (C61_well_formed_templates_are_accepted dbg _ G).
Qed.

(** * Cases *)
Lemma own_lines_sound s : match s with [] => False | c :: _ => c <> nl /\ c <> 13%N end -> last s 0%N = nl -> own_lines s.
Proof.
  destruct s as [|c s]; [intros []|]. intros [N1 N2] L. split.
  - exists (removelast (c :: s)). rewrite <- L. now apply app_removelast_last.
  - intros (r & [E|E]); injection E as -> _; contradiction.
Qed.
(** The page of C61 with a line end behind it. *)
Definition page : text := sample ++ [nl].
Lemma page_well_formed : well_formed page.
Proof. unfold well_formed, tokens. replace (nontriv (lex page)) with (nontriv (lex sample)) by (vm_compute; reflexivity). exact C61_case. Qed.
Lemma page_lines : own_lines page.
Proof. apply own_lines_sound; [split; discriminate|vm_compute; reflexivity]. Qed.
(** The page three times. *)
Example C86_case_sequence : Forall (fun s => own_lines s /\ well_formed s) [page; page; page].
Proof. assert (H : own_lines page /\ well_formed page) by (split; [exact page_lines|exact page_well_formed]). repeat (constructor; [exact H|]). constructor. Qed.
Definition block_open : text := txt "{% block content %}" ++ [nl].
Definition block_close : text := txt "{% endblock content %}".
Example C86_case_block : whole_lines block_open /\ ~ begins_with_line_break block_close /\ encloses block_open block_close.
Proof.
  split; [now exists (txt "{% block content %}")|]. split; [intros (r & [E|E]); discriminate E|].
  pose (l := tokens block_open). vm_compute in l. pose (r := tokens block_close). vm_compute in r.
  apply enc_paired with (k := TK_BLOCK) (i := [nth 2 l (mkTok TK_UNKNOWN [] 0 0)]) (e := TK_ENDBLOCK)
    (E := optional (fun x => exists m, x = [m] /\ is [TK_WORD] m /\ tk_text m = tk_text (nth 2 l (mkTok TK_UNKNOWN [] 0 0)))) (j := [nth 2 r (mkTok TK_UNKNOWN [] 0 0)]).
  - apply paired_block. left. reflexivity.
  - exists (nth 0 l (mkTok TK_UNKNOWN [] 0 0)), (nth 1 l (mkTok TK_UNKNOWN [] 0 0)), (nth 3 l (mkTok TK_UNKNOWN [] 0 0)). split; [vm_compute; reflexivity|]. repeat split; left; reflexivity.
  - right. exists (nth 2 r (mkTok TK_UNKNOWN [] 0 0)). split; [reflexivity|]. split; [left; vm_compute; reflexivity|vm_compute; reflexivity].
  - exists (nth 0 r (mkTok TK_UNKNOWN [] 0 0)), (nth 1 r (mkTok TK_UNKNOWN [] 0 0)), (nth 3 r (mkTok TK_UNKNOWN [] 0 0)). split; [vm_compute; reflexivity|]. repeat split; left; reflexivity.
Qed.
Definition main_open : text := txt "<main>" ++ [nl].
Definition main_close : text := txt "</main>".
Example C86_case_element : whole_lines main_open /\ ~ begins_with_line_break main_close /\ encloses main_open main_close.
Proof.
  split; [now exists (txt "<main>")|]. split; [intros (r & [E|E]); discriminate E|].
  pose (l := tokens main_open). vm_compute in l. pose (r := tokens main_close). vm_compute in r. pose (u := mkTok TK_UNKNOWN [] 0 0).
  apply enc_element with (l := nth 0 l u) (n := nth 1 l u) (a := []) (g := nth 2 l u) (s := nth 0 r u) (m := nth 1 r u) (r := nth 2 r u);
    try (vm_compute; reflexivity); try (left; reflexivity); try apply content_nil.
  - right. split; [discriminate|]. do 2 eexists. split; [reflexivity|]. split; [vm_compute; left; split; discriminate|]. cbn. repeat (apply Forall_cons; [left; vm_compute; left; split; discriminate|]). apply Forall_nil.
  - intros H. vm_compute in H. repeat (destruct H as [H|H]; [discriminate H|]). exact H.
  - intros H. vm_compute in H. repeat (destruct H as [H|H]; [discriminate H|]). exact H.
Qed.
(** Lines of their own are needed: [<] at the end of a text and a letter behind it make a tag. *)
Example C86_case_same_line : reported "a <" = false /\ reported "b" = false /\ reported "a <b" = true.
Proof. vm_compute. repeat split. Qed.

Print Assumptions C86_one_after_another.
Print Assumptions C86_inside_of_something.
