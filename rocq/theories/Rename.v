(** Renaming: what it means that two templates differ in the words they use only.
    Specification for C74; it uses nothing of the parser but its tokens and trees. *)
From Coq Require Import NArith String Bool Arith List.
Import ListNotations.
From Verif Require Import Text Kind Lexer Machine ParserApi.

Definition letter (c : N) : bool := (N.leb 97 c && N.leb c 122) || (N.leb 65 c && N.leb c 90).
Definition digit (c : N) : bool := N.leb 48 c && N.leb c 57.
Definition word_char (c : N) : bool := letter c || digit c || N.eqb c 95 || N.eqb c 45.

(** Names in Twig: letters, digits and underlines (and the upper half of Latin-1), no digit first. *)
Definition twig_start (c : N) : bool := letter c || N.eqb c 95 || (N.leb 127 c && N.leb c 255).
Definition twig_word (w : text) : bool :=
  match w with c :: s => twig_start c && forallb (fun c => twig_start c || digit c) s | [] => false end.
(** Names of HTML elements: letters, digits and minus signs, a letter first. *)
Definition element_word (w : text) : bool :=
  match w with c :: s => letter c && forallb (fun c => letter c || digit c || N.eqb c 45) s | [] => false end.
(** Names of HTML attributes: letters, digits, minus signs and underlines; a letter first, or a
    letter behind one of [: @ # _ $]. *)
Definition attribute_word (w : text) : bool :=
  match w with
  | c :: s =>
    (letter c && forallb word_char s) ||
    (existsb (N.eqb c) [58; 64; 35; 95; 36]%N && match s with d :: s => letter d && forallb word_char s | [] => false end)
  | [] => false
  end.
(** Elements without content, and those whose content is no HTML. *)
Definition special_elements : list text :=
  map txt ["area"; "base"; "br"; "col"; "command"; "embed"; "hr"; "img"; "input"; "keygen";
           "link"; "meta"; "param"; "source"; "track"; "wbr"; "script"; "style"; "textarea"; "title"]%string.
Definition lower (c : N) : N := if N.leb 65 c && N.leb c 90 then (c + 32)%N else c.
Definition special_element (w : text) : Prop := In (map lower w) special_elements.

(** Two words that can stand for each other: the same, or usable in the same places. *)
Definition same_sort (w w' : text) : Prop :=
  w = w' \/
  (w <> [] /\ w' <> [] /\ twig_word w = twig_word w' /\ element_word w = element_word w' /\
   attribute_word w = attribute_word w' /\ attribute_word (58%N :: w) = attribute_word (58%N :: w') /\
   ~ special_element w /\ ~ special_element w').

(** Token lists that correspond to each other one to one: the same kinds, words of the same sort,
    and equal words only where the words of the other list are equal. *)
Definition renaming (T T' : list token) : Prop :=
  Forall2 (fun t t' => tk_kind t = tk_kind t' /\ same_sort (tk_text t) (tk_text t')) T T' /\
  (forall t1 t1' t2 t2', In (t1, t1') (combine T T') -> In (t2, t2') (combine T T') ->
     (tk_text t1 = tk_text t2 <-> tk_text t1' = tk_text t2')).

Section Renamed.
  Context (T T' : list token).
  (** a word and the one it is replaced by *)
  Definition replaced (w w' : text) : Prop := exists t t', In (t, t') (combine T T') /\ tk_text t = w /\ tk_text t' = w'.
  (** The same tree with the words replaced. (A leaf of two tokens: a colon and a name.) *)
  Inductive renamed : tree -> tree -> Prop :=
  | RN_leaf k w w' : replaced w w' -> renamed (Leaf k w) (Leaf k w')
  | RN_two k v v' w w' : replaced v v' -> replaced w w' -> renamed (Leaf k (v ++ w)) (Leaf k (v' ++ w'))
  | RN_node k cs cs' : Forall2 renamed cs cs' -> renamed (Node k cs) (Node k cs').
  (** The same error at the same token; a name in its message is replaced. *)
  Definition same_mistake (e e' : perror) : Prop :=
    err_found e = err_found e' /\
    (exists t t', In (t, t') (combine T T') /\ err_start e = tk_start t /\ err_end e = tk_end t /\ err_start e' = tk_start t' /\ err_end e' = tk_end t') /\
    (err_expected e = err_expected e' \/
     exists a w w' b, replaced w w' /\ err_expected e = a ++ w ++ b /\ err_expected e' = a ++ w' ++ b).
  Definition renamed_parse (x x' : res (tree * list perror)) : Prop :=
    match x, x' with
    | OK (t, errs), OK (t', errs') => renamed t t' /\ Forall2 same_mistake errs errs'
    | Panicked q, Panicked q' => q = q'
    | _, _ => False
    end.
End Renamed.
