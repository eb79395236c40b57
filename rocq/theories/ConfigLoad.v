(** Loading the configuration: crates/ludtwig/src/config.rs, with the parts of figment 0.10 it
    uses (providers Toml and Env, merging, extraction), taken from their contract. *)
From Coq Require Import List NArith ZArith String Bool.
Import ListNotations.
From Verif Require Import Text Rule DefaultConfig.
Local Open Scope string_scope.
Local Open Scope list_scope.

(** figment's values, as used by [Figment::merge] in config.rs:142-157; figment itself is not part
    of /repo, it is modelled from its documentation.  A map has each key at most once; its order plays no role.  A character
    counts as a text of one character; what is neither a text, an integer, a boolean, an array
    nor a map (dates, floating point numbers, nothing) is [VOther]. *)
Inductive value : Set :=
| VStr (s : text)
| VNum (n : Z)
| VBool (b : bool)
| VArr (l : list value)
| VDict (d : list (text * value))
| VOther (n : nat).
(** figment's [Dict], as used in config.rs:142-157 *)
Definition dict : Set := list (text * value).

(** look-up in a map (figment), as used in config.rs:142-157 *)
Fixpoint get (k : text) (d : dict) : option value :=
  match d with
  | [] => None
  | (k', v) :: r => if text_eqb k' k then Some v else get k r
  end.
(** whether a map has a key (figment), as used in config.rs:142-157 *)
Definition has (k : text) (d : dict) : bool := match get k d with Some _ => true | None => false end.

(** figment (config.rs:142-157), merging [b] over [a]: maps are merged key by key, anything else is replaced *)
Fixpoint coalesce (a b : value) {struct a} : value :=
  match a, b with
  | VDict da, VDict db =>
    VDict ((fix join (l : list (text * value)) : list (text * value) :=
              match l with
              | [] => []
              | (k, v) :: r => (k, match get k db with Some w => coalesce v w | None => v end) :: join r
              end) da
           ++ filter (fun p => negb (has (fst p) da)) db)
  | _, _ => b
  end.
(** the same for whole maps (figment, config.rs:142-157) *)
Definition merge (a b : dict) : dict :=
  match coalesce (VDict a) (VDict b) with VDict d => d | _ => [] end.

(** [str::replace] with the two patterns of config.rs:154-155 *)
Fixpoint split_levels (s : text) : text :=
  match s with
  | 95%N :: ((95%N :: r) as r1) => 46%N :: split_levels r
  | c :: r => c :: split_levels r
  | [] => []
  end.
(** the second [str::replace], config.rs:154-155 *)
Definition dashes (s : text) : text := map (fun c => if N.eqb c 95 then 45%N else c) s.
(** [str::split] at full stops, done by figment's Env on the keys of config.rs:152-156 *)
Fixpoint split_dots (s : text) : list text :=
  match s with
  | [] => [[]]
  | c :: r =>
    if N.eqb c 46 then [] :: split_dots r
    else match split_dots r with w :: l => (c :: w) :: l | [] => [[c]] end
  end.

(** config.rs:152-156 with figment's Env: the key a variable stands for.  The prefix is compared
    without case and removed, the functions given to [split] and [map] are applied, keys with an
    empty part are dropped, the rest is in lower case.  Surrounding white space of names, which
    figment removes, is left out. *)
Fixpoint strip_prefix (p s : text) : option text :=
  match p, s with
  | [], _ => Some s
  | x :: p', y :: s' => if N.eqb (to_lower_ascii x) (to_lower_ascii y) then strip_prefix p' s' else None
  | _ :: _, [] => None
  end.
(** config.rs:152-156 *)
Definition env_key (name : text) : option (list text) :=
  match strip_prefix (txt "LUDTWIG_") name with
  | None => None
  | Some r =>
    let ks := split_dots (dashes (split_levels r)) in
    if existsb (fun k : text => match k with [] => true | _ => false end) ks then None
    else Some (map (fun k : text => map to_lower_ascii k : text) ks)
  end.
(** figment, [nest], for config.rs:152-156: the map with a single value at the end of a path *)
Fixpoint nest (p : list text) (v : value) : value :=
  match p with [] => v | k :: r => VDict [(k, nest r v)] end.

Section Load.
  (** The TOML parser: the map a text stands for, or [None] if it is not TOML. *)
  Context (toml : text -> option dict).
  (** figment's reading of the text of a variable as a value. *)
  Context (env_value : text -> value).
  (** serde: the variant an enumeration reads from a number. *)
  Context (by_number : Z -> option nat).
  (** config.rs:135 and 145: the text of the built-in configuration file with the version of the
      program in its place. *)
  Context (default_raw : text).

  (** figment's Env (config.rs:152-156): the variables one after the other, each merged over the ones before *)
  Definition env_dict (env : list (text * text)) : dict :=
    fold_left (fun d p => match env_key (fst p) with
                          | Some ks => match nest ks (env_value (snd p)) with VDict n => merge d n | _ => d end
                          | None => d
                          end) env [].

  (** serde: reading values of the types in config.rs:11-45 *)
  Definition de_text (v : value) : option text := match v with VStr s => Some s | _ => None end.
  (** bool, config.rs:35-45 *)
  Definition de_bool (v : value) : option bool := match v with VBool b => Some b | _ => None end.
  (** u8, config.rs:35-45 *)
  Definition de_u8 (v : value) : option nat :=
    match v with VNum n => if (Z.leb 0 n && Z.leb n 255)%Z then Some (Z.to_nat n) else None | _ => None end.
  (** Vec<String>, config.rs:20-33 *)
  Fixpoint de_list (l : list value) : option (list text) :=
    match l with
    | [] => Some []
    | v :: r => match de_text v, de_list r with Some s, Some t => Some (s :: t) | _, _ => None end
    end.
  (** Vec<String>, config.rs:20-33 *)
  Definition de_texts (v : value) : option (list text) := match v with VArr l => de_list l | _ => None end.
  (** serde: the number of a variant by its name, for config.rs:47-112 *)
  Fixpoint index_of (s : text) (l : list text) : option nat :=
    match l with
    | [] => None
    | x :: r => if text_eqb x s then Some 0 else option_map S (index_of s r)
    end.
  (** config.rs:47-112, derived by serde.  Variants are read from their names or numbers.  (Left out: serde also reads them from a map
      with the name as its only key.) *)
  Definition de_variant {A} (names : list text) (variants : list A) (v : value) : option A :=
    match match v with VStr s => index_of s names | VNum n => by_number n | _ => None end with
    | Some i => nth_error variants i
    | None => None
    end.
  (** config.rs:47-52, 76-82, 106-112 *)
  Definition de_mode : value -> option indentation_mode := de_variant [txt "space"; txt "tab"] [ISpace; ITab].
  (** config.rs:76-82 *)
  Definition de_ending : value -> option line_ending := de_variant [txt "unix_LF"; txt "windows_CRLF"] [UnixLF; WindowsCRLF].
  (** config.rs:106-112 *)
  Definition de_quotation : value -> option quotation := de_variant [txt "single"; txt "double"] [QSingle; QDouble].
  (** config.rs:11-45, derived by serde.  A struct is read from a map, its fields by name; a missing field is an error unless the
      struct has defaults.  (Left out: serde also reads a struct from an array.) *)
  Definition de_struct (v : value) : option dict := match v with VDict d => Some d | _ => None end.
  (** a field without default, config.rs:11-45 *)
  Definition field {A} (k : text) (de : value -> option A) (d : dict) : option A :=
    match get k d with Some v => de v | None => None end.
  (** a field of a struct with [serde(default)], config.rs:26-33 *)
  Definition field_or {A} (k : text) (a : A) (de : value -> option A) (d : dict) : option A :=
    match get k d with Some v => de v | None => Some a end.

  (** config.rs:11-18 *)
  Record loaded : Set := mkLoaded { ld_version : text; ld_config : config }.
  Local Notation "'let?' x := a 'in' b" := (match a with Some x => b | None => None end) (at level 200, x pattern).
  (** config.rs:11-45: names in kebab case, [Twig] with [default] *)
  Definition extract (v : value) : option loaded :=
    let? d := de_struct v in
    let? version := field (txt "version") de_text d in
    let? general := field (txt "general") de_struct d in
    let? rules := field (txt "active-rules") de_texts general in
    let? format := field (txt "format") de_struct d in
    let? ending := field (txt "line-ending") de_ending format in
    let? mode := field (txt "indentation-mode") de_mode format in
    let? count := field (txt "indentation-count") de_u8 format in
    let? children := field (txt "indent-children-of-blocks") de_bool format in
    let? breaks := field (txt "linebreaks-around-blocks") de_bool format in
    let? twigq := field (txt "twig-quotation") de_quotation format in
    let? htmlq := field (txt "html-quotation") de_quotation format in
    let? twig := field (txt "twig") de_struct d in
    let? filters := field_or (txt "valid-filters") [] de_texts twig in
    let? tests := field_or (txt "valid-tests") [] de_texts twig in
    let? functions := field_or (txt "valid-functions") [] de_texts twig in
    Some (mkLoaded version (mkConfig rules ending mode count children breaks twigq htmlq filters tests functions)).

  (** What is at a place in the file system, for config.rs:140-161 and 164-235. *)
  Inductive entry : Set := File (content : text) | Directory.
  (** The location of the configuration file (config.rs:140-161): what is at the path itself and, for a relative
      path, what is at the same path from each directory above the current one. *)
  Record location : Set := mkLocation { here : option entry; above : list (option entry) }.
  (** figment, [Toml::file] of config.rs:140-161: the first file found; nothing if there is none *)
  Definition found_file (l : location) : option text :=
    match flat_map (fun e => match e with Some (File t) => [t] | _ => [] end) (here l :: above l) with
    | t :: _ => Some t
    | [] => None
    end.

  (** config.rs:140-161 Config::new; [None] is an error *)
  Definition config_new (l : location) (env : list (text * text)) : option loaded :=
    let? built_in := toml default_raw in
    let? file := match found_file l with Some t => toml t | None => Some [] end in
    extract (coalesce (coalesce (coalesce (VDict []) (VDict built_in)) (VDict file)) (VDict (env_dict env))).

  (** What a user sees of config.rs:164-235 *)
  Inductive said : Set :=
  | AlreadyExists | DefaultWritten | LoadedFile | UsingDefault
  | FoundVariable (name : text) | VersionDiffers (version : text) | VersionUnknown | UsedValues | ReadError.
  (** config.rs:164-235: the messages, what is written to the configuration file, and how it ends: with an exit code
      or with a configuration. *)
  Record handled : Set := mkHandled { messages : list said; written : option text; outcome : nat + loaded }.

  (** [str::contains], config.rs:164-235 *)
  Fixpoint contains (p s : text) : bool :=
    starts_with p s || match s with [] => false | _ :: r => contains p r end.

  (** config.rs:164-235 handle_config_or_exit; [program_version] is LUDTWIG_VERSION. *)
  Definition handle_config (program_version : text) (create verbose : bool) (l : location) (env : list (text * text)) : handled :=
    if create then
      match here l with
      | Some _ => mkHandled [AlreadyExists] None (inl 1)
      | None => mkHandled [DefaultWritten] (Some default_raw) (inl 0)
      end
    else
      match config_new l env with
      | Some c =>
        let raw := match here l with Some (File t) => t | _ => [] end in
        mkHandled
          ([match here l with Some _ => LoadedFile | None => UsingDefault end]
           ++ flat_map (fun p => if starts_with (txt "LUDTWIG_") (fst p) then [FoundVariable (fst p)] else []) env
           ++ (if negb (text_eqb (ld_version c) program_version) then [VersionDiffers (ld_version c)]
               else if negb (match raw with [] => true | _ => false end) && negb (contains (txt "version") raw) then [VersionUnknown]
               else [])
           ++ (if verbose then [UsedValues] else []))
          None (inr c)
      | None => mkHandled [ReadError] None (inl 1)
      end.
End Load.

(** ludtwig-config.toml as the map it stands for, with the version in its place *)
Definition built_in_values (version : text) : dict :=
  [(txt "version", VStr version);
   (txt "general", VDict [(txt "active-rules", VArr (map VStr (active_rules default_config)))]);
   (txt "format", VDict
      [(txt "line-ending", VStr (txt "unix_LF")); (txt "indentation-mode", VStr (txt "space"));
       (txt "indentation-count", VNum 4); (txt "indent-children-of-blocks", VBool true);
       (txt "linebreaks-around-blocks", VBool true); (txt "twig-quotation", VStr (txt "single"));
       (txt "html-quotation", VStr (txt "double"))]);
   (txt "twig", VDict
      [(txt "valid-filters", VArr (map VStr (valid_filters default_config)));
       (txt "valid-tests", VArr (map VStr (valid_tests default_config)));
       (txt "valid-functions", VArr (map VStr (valid_functions default_config)))])].
