(** The default configuration: crates/ludtwig/ludtwig-config.toml (generated from it). *)
From Coq Require Import List NArith String.
Import ListNotations.
From Verif Require Import Text Rule.
Local Open Scope string_scope.
Local Open Scope list_scope.

(** ludtwig-config.toml:29-84 and the lists of names from line 86 on *)
Definition default_config : config :=
  mkConfig
    [txt "ludtwig-ignore-file-not-on-top"; txt "whitespace-between-line-breaks";
     txt "line-ending"; txt "indentation"; txt "twig-block-line-breaks";
     txt "twig-block-name-snake-case"; txt "html-attribute-name-kebab-case";
     txt "twig-logic-and"; txt "twig-logic-or"; txt "twig-string-quotation";
     txt "html-string-quotation"; txt "twig-hash-key-no-quotes"; txt "twig-use-is-same-as";
     txt "twig-use-is-not-same-as"; txt "twig-prefer-shopware-extends";
     txt "twig-block-duplicate"; txt "twig-json-encode-escape-js"; txt "html-duplicate-id";
     txt "twig-variable-definition-naming"; txt "twig-valid-filter"; txt "twig-valid-test";
     txt "twig-valid-function"]
    UnixLF ISpace 4 true true QSingle QDouble
    [txt "abs"; txt "batch"; txt "capitalize"; txt "column"; txt "convert_encoding";
     txt "country_name"; txt "currency_name"; txt "currency_symbol"; txt "data_uri"; txt "date";
     txt "date_modify"; txt "default"; txt "escape"; txt "e"; txt "filter"; txt "find";
     txt "first"; txt "format"; txt "format_currency"; txt "format_date"; txt "format_datetime";
     txt "format_number"; txt "format_time"; txt "html_attr_merge"; txt "html_attr_type";
     txt "html_to_markdown"; txt "inline_css"; txt "inky_to_html"; txt "invoke"; txt "join";
     txt "json_encode"; txt "keys"; txt "language_name"; txt "last"; txt "length";
     txt "locale_name"; txt "lower"; txt "map"; txt "markdown_to_html"; txt "merge"; txt "nl2br";
     txt "number_format"; txt "plural"; txt "raw"; txt "reduce"; txt "replace"; txt "reverse";
     txt "round"; txt "shuffle"; txt "singular"; txt "slice"; txt "slug"; txt "sort";
     txt "spaceless"; txt "split"; txt "striptags"; txt "timezone_name"; txt "title"; txt "trim";
     txt "u"; txt "upper"; txt "url_encode"]
    [txt "constant"; txt "defined"; txt "divisible by"; txt "empty"; txt "even"; txt "iterable";
     txt "mapping"; txt "null"; txt "none"; txt "odd"; txt "same as"; txt "sequence"]
    [txt "attribute"; txt "block"; txt "constant"; txt "country_names"; txt "country_timezones";
     txt "currency_names"; txt "cycle"; txt "date"; txt "dump"; txt "enum"; txt "enum_cases";
     txt "html_attr"; txt "html_classes"; txt "html_cva"; txt "include"; txt "language_names";
     txt "locale_names"; txt "max"; txt "min"; txt "parent"; txt "random"; txt "range";
     txt "script_names"; txt "source"; txt "template_from_string"; txt "timezone_names"].
