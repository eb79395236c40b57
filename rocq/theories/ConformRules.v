(** Conformance tests (tests, not proofs): the repository's own rule tests (test_rule,
    test_rule_fix and test_rule_does_not_fix in check/rules/*.rs), run on the model.
    Generated from the test modules.  For a report the severity, rule, message, line and column of
    every diagnostic is compared, and every label text has to occur in the expected report. *)
From Coq Require Import List NArith String Bool Arith.
Import ListNotations.
From Verif Require Import Text Kind Lexer ParserApi Machine TreeSpec Red Typed Rule Rules Check Process DefaultConfig.
Local Open Scope string_scope.
Local Open Scope list_scope.

Definition sev_eqb (a b : severity) : bool :=
  match a, b with
  | SError, SError | SWarning, SWarning | SHelp, SHelp | SInfo, SInfo => true
  | _, _ => false
  end.
Fixpoint line_col (off line col : nat) (s : text) : nat * nat :=
  match off, s with
  | S _, c :: r => if N.eqb c 10 then line_col (off - utf8_len c) (S line) 1 r
                   else line_col (off - utf8_len c) line (S col) r
  | _, _ => (line, col)
  end.
Fixpoint occurs (a b : text) : bool :=
  match b with
  | [] => match a with [] => true | _ => false end
  | _ :: r => match starts_with a b with true => true | false => occurs a r end
  end.
(** the part of a label up to its first line break or special character *)
Fixpoint first_line (s : text) : text :=
  match s with
  | c :: r => if N.ltb c 32 || N.ltb 126 c then [] else c :: first_line r
  | [] => []
  end.
Definition labels (r : result) : list text :=
  (match rs_primary r with Some n => [nt_msg n] | None => [] end)
  ++ map nt_msg (rs_secondary r)
  ++ map (fun s => sg_msg s ++ txt ": " ++ sg_text s) (rs_suggestions r).
Definition run_one (rule : text) (src : text) : option (file_context * list result) :=
  match find (fun r => text_eqb (rl_name r) rule) RULE_DEFINITIONS, parse_src true src with
  | Some r, OK (t, errs) =>
    match run_rules default_config [r] t with
    | Done rs => Some (mkFile src t errs [r], rs)
    | Crashed => None
    end
  | _, _ => None
  end.
Definition expected : Type := severity * text * text * nat * nat.
Fixpoint agree (src report : text) (rs : list result) (es : list expected) : bool :=
  match rs, es with
  | [], [] => true
  | r :: rs', (s, rule, msg, l, c) :: es' =>
    sev_eqb (rs_severity r) s && text_eqb (rs_rule r) rule && text_eqb (rs_msg r) msg
    && match rs_primary r with
       | Some n => let (l', c') := line_col (nt_start n) 1 1 src in Nat.eqb l l' && Nat.eqb c c'
       | None => false
       end
    && forallb (fun x => occurs (first_line x) report) (labels r)
    && agree src report rs' es'
  | _, _ => false
  end.
Definition reports (rule src report : text) (es : list expected) : bool :=
  match run_one rule src with Some (_, rs) => agree src report rs es | None => false end.
Definition fixes (rule src new : text) (dirty : bool) (rounds : nat) : bool :=
  match run_one rule src with
  | Some (fc, rs) =>
    match iteratively_apply_suggestions true insertion_sort default_config fc rs with
    | Ok (fc', _, d, i) => text_eqb (fc_source fc') new && Bool.eqb d dirty && Nat.eqb i rounds
    | _ => false
    end
  | None => false
  end.

(** check/rules/html_attribute_name_kebab_case.rs:56 *)
Definition t_html_attribute_name_kebab_case_56 : bool :=
  reports (txt "html-attribute-name-kebab-case") (txt "<custom aBc/>") (txt "help[html-attribute-name-kebab-case]: Attribute name is not written in kebab-case
     ./debug-rule.html.twig:1:9
   
1   <custom aBc/>
            ^^^
             
            help: rename this attribute in kebab-case
            Try this name instead: a-bc

")
    [(SHelp, txt "html-attribute-name-kebab-case", txt "Attribute name is not written in kebab-case", 1, 9)].

(** check/rules/html_attribute_name_kebab_case.rs:75 *)
Definition t_html_attribute_name_kebab_case_75 : bool :=
  fixes (txt "html-attribute-name-kebab-case") (txt "<twig:namespaced:component :myCamelCaseAttribute=""asdf""/>") (txt "<twig:namespaced:component :myCamelCaseAttribute=""asdf""/>") false 0.

(** check/rules/html_attribute_name_kebab_case.rs:84 *)
Definition t_html_attribute_name_kebab_case_84 : bool :=
  fixes (txt "html-attribute-name-kebab-case") (txt "<custom aBc/>") (txt "<custom a-bc/>") true 1.

(** check/rules/html_duplicate_id.rs:107 *)
Definition t_html_duplicate_id_107 : bool :=
  reports (txt "html-duplicate-id") (txt "<div id=""foo""></div>
<span id=""bar""></span>
<p id=""foo""></p>") (txt "warning[html-duplicate-id]: duplicate HTML element id attribute value
     ./debug-rule.html.twig:3:8
   
1   <div id=""foo""></div>
             --- first defined here
2   <span id=""bar""></span>
3   <p id=""foo""></p>
           ^^^ duplicate id 'foo'

")
    [(SWarning, txt "html-duplicate-id", txt "duplicate HTML element id attribute value", 3, 8)].

(** check/rules/html_duplicate_id.rs:128 *)
Definition t_html_duplicate_id_128 : bool :=
  reports (txt "html-duplicate-id") (txt "<div id=""foo""></div>
<span id=""bar""></span>
<p id=""baz""></p>") (txt "")
    [].

(** check/rules/html_duplicate_id.rs:139 *)
Definition t_html_duplicate_id_139 : bool :=
  reports (txt "html-duplicate-id") (txt "<div id=""item-{{ id }}""></div>
<span id=""item-{{ id }}""></span>") (txt "")
    [].

(** check/rules/html_duplicate_id.rs:149 *)
Definition t_html_duplicate_id_149 : bool :=
  reports (txt "html-duplicate-id") (txt "<div id=""foo""></div>
{# ludtwig-ignore html-duplicate-id #}
<p id=""foo""></p>") (txt "")
    [].

(** check/rules/html_duplicate_id.rs:160 *)
Definition t_html_duplicate_id_160 : bool :=
  reports (txt "html-duplicate-id") (txt "<div id=""foo""></div>
{# ludtwig-ignore #}
<p id=""foo""></p>") (txt "")
    [].

(** check/rules/html_duplicate_id.rs:171 *)
Definition t_html_duplicate_id_171 : bool :=
  reports (txt "html-duplicate-id") (txt "<div id=""foo""></div>
<div>
    {# ludtwig-ignore html-duplicate-id #}
    <span id=""foo""></span>
</div>
<p id=""foo""></p>") (txt "warning[html-duplicate-id]: duplicate HTML element id attribute value
     ./debug-rule.html.twig:6:8
   
1   <div id=""foo""></div>
             --- first defined here
   
6   <p id=""foo""></p>
           ^^^ duplicate id 'foo'

")
    [(SWarning, txt "html-duplicate-id", txt "duplicate HTML element id attribute value", 6, 8)].

(** check/rules/html_duplicate_id.rs:195 *)
Definition t_html_duplicate_id_195 : bool :=
  reports (txt "html-duplicate-id") (txt "<div id=""foo""></div>
{# ludtwig-ignore some-other-rule #}
<p id=""foo""></p>") (txt "warning[html-duplicate-id]: duplicate HTML element id attribute value
     ./debug-rule.html.twig:3:8
   
1   <div id=""foo""></div>
             --- first defined here
2   {# ludtwig-ignore some-other-rule #}
3   <p id=""foo""></p>
           ^^^ duplicate id 'foo'

")
    [(SWarning, txt "html-duplicate-id", txt "duplicate HTML element id attribute value", 3, 8)].

(** check/rules/html_duplicate_id.rs:216 *)
Definition t_html_duplicate_id_216 : bool :=
  reports (txt "html-duplicate-id") (txt "<div id=""foo""></div>
<span id=""foo""></span>
<p id=""foo""></p>") (txt "warning[html-duplicate-id]: duplicate HTML element id attribute value
     ./debug-rule.html.twig:2:11
   
1   <div id=""foo""></div>
             --- first defined here
2   <span id=""foo""></span>
              ^^^ duplicate id 'foo'

warning[html-duplicate-id]: duplicate HTML element id attribute value
     ./debug-rule.html.twig:3:8
   
1   <div id=""foo""></div>
             --- first defined here
2   <span id=""foo""></span>
3   <p id=""foo""></p>
           ^^^ duplicate id 'foo'

")
    [(SWarning, txt "html-duplicate-id", txt "duplicate HTML element id attribute value", 2, 11);
     (SWarning, txt "html-duplicate-id", txt "duplicate HTML element id attribute value", 3, 8)].

(** check/rules/html_string_quotation.rs:97 *)
Definition t_html_string_quotation_97 : bool :=
  reports (txt "html-string-quotation") (txt "<div class='a'></div>") (txt "help[html-string-quotation]: wrong quotation
     ./debug-rule.html.twig:1:12
   
1   <div class='a'></div>
               ^^^
                  
                 Try this quote instead: ""
               help: change the quotation to double quotes ("")
               Try this quote instead: ""

")
    [(SHelp, txt "html-string-quotation", txt "wrong quotation", 1, 12)].

(** check/rules/html_string_quotation.rs:117 *)
Definition t_html_string_quotation_117 : bool :=
  reports (txt "html-string-quotation") (txt "<div style='value: ""a""'></div>") (txt "help[html-string-quotation]: wrong quotation
     ./debug-rule.html.twig:1:12
   
1   <div style='value: ""a""'></div>
               ^^^^^^^^^^^^ help: change the quotation to double quotes ("")

")
    [(SHelp, txt "html-string-quotation", txt "wrong quotation", 1, 12)].

(** check/rules/html_string_quotation.rs:133 *)
Definition t_html_string_quotation_133 : bool :=
  reports (txt "html-string-quotation") (txt "<div class=a></div>") (txt "help[html-string-quotation]: wrong quotation
     ./debug-rule.html.twig:1:12
   
1   <div class=a></div>
               ^- Try this quote instead: ""
                 
               help: change the quotation to double quotes ("")
               Try this quote instead: ""

")
    [(SHelp, txt "html-string-quotation", txt "wrong quotation", 1, 12)].

(** check/rules/html_string_quotation.rs:152 *)
Definition t_html_string_quotation_152 : bool :=
  fixes (txt "html-string-quotation") (txt "<div class='a'></div>") (txt "<div class=""a""></div>") true 1.

(** check/rules/html_string_quotation.rs:161 *)
Definition t_html_string_quotation_161 : bool :=
  fixes (txt "html-string-quotation") (txt "<div class=a required></div>") (txt "<div class=""a"" required></div>") true 1.

(** check/rules/html_string_quotation.rs:170 *)
Definition t_html_string_quotation_170 : bool :=
  fixes (txt "html-string-quotation") (txt "<div style='value: ""a""'></div>") (txt "<div style='value: ""a""'></div>") false 0.

(** check/rules/indentation.rs:338 *)
Definition t_indentation_338 : bool :=
  reports (txt "indentation") (txt "{% block outer %}
                <div>
        inner
                      </div>
                  {% endblock %}") (txt "help[indentation]: Wrong indentation
     ./debug-rule.html.twig:2:1
   
2                   <div>
    ^^^^^^^^^^^^^^^^
     
    Found 16 spaces and 0 tabs but expected indentation of 4 spaces here
    Change indentation to 4 spaces:     

help[indentation]: Wrong indentation
     ./debug-rule.html.twig:4:1
   
4                         </div>
    ^^^^^^^^^^^^^^^^^^^^^^
     
    Found 22 spaces and 0 tabs but expected indentation of 4 spaces here
    Change indentation to 4 spaces:     

help[indentation]: Wrong indentation
     ./debug-rule.html.twig:5:1
   
5                     {% endblock %}
    ^^^^^^^^^^^^^^^^^^
     
    Found 18 spaces and 0 tabs but expected indentation of 0 spaces here
    Change indentation to 0 spaces: 

")
    [(SHelp, txt "indentation", txt "Wrong indentation", 2, 1);
     (SHelp, txt "indentation", txt "Wrong indentation", 4, 1);
     (SHelp, txt "indentation", txt "Wrong indentation", 5, 1)].

(** check/rules/indentation.rs:379 *)
Definition t_indentation_379 : bool :=
  reports (txt "indentation") (txt "<pre>
        hello
        
        
        world
            </pre>
            <pre>
                <code>
        hello
        
        
        world
                </code>
            </pre>
            <textarea>
    hello
    
    
    world
            </textarea>
            <textarea>
                <p>
    hello
    
    
    world
                </p>
            </textarea>
    <div>
        wrong
</div>") (txt "help[indentation]: Wrong indentation
      ./debug-rule.html.twig:29:1
    
29       <div>
     ^^^^
      
     Found 4 spaces and 0 tabs but expected indentation of 0 spaces here
     Change indentation to 0 spaces: 

help[indentation]: Wrong indentation
      ./debug-rule.html.twig:30:1
    
30           wrong
     ^^^^^^^^
      
     Found 8 spaces and 0 tabs but expected indentation of 4 spaces here
     Change indentation to 4 spaces:     

")
    [(SHelp, txt "indentation", txt "Wrong indentation", 29, 1);
     (SHelp, txt "indentation", txt "Wrong indentation", 30, 1)].

(** check/rules/indentation.rs:437 *)
Definition t_indentation_437 : bool :=
  reports (txt "indentation") (txt "<script>
    console.log(""root"");

    if (foo) {
        console.log(""nested"");
        if (nested2) {
            console.log(""nested"");
        }
    }
</script>

<style>
    .foo {
        color: red;
        .bar {
            color: blue;
        }
    }
</style>") (txt "")
    [].

(** check/rules/indentation.rs:464 *)
Definition t_indentation_464 : bool :=
  fixes (txt "indentation") (txt "{% block outer %}
                <div>
        inner
                      </div>
                  {% endblock %}") (txt "{% block outer %}
    <div>
        inner
    </div>
{% endblock %}") true 1.

(** check/rules/indentation.rs:482 *)
Definition t_indentation_482 : bool :=
  fixes (txt "indentation") (txt "<div id=""my-div""
            class=""some-class""
            style=""background-color: red"">
                hello world
            </div>
            ") (txt "<div id=""my-div""
     class=""some-class""
     style=""background-color: red"">
    hello world
</div>
") true 1.

(** check/rules/indentation.rs:502 *)
Definition t_indentation_502 : bool :=
  reports (txt "indentation") (txt "{% block outer %}
    {# ludtwig-ignore indentation #}
    <div>
    inner
    </div>
{% endblock %}") (txt "")
    [].

(** check/rules/line_ending.rs:73 *)
Definition t_line_ending_73 : bool :=
  reports (txt "line-ending") ([13;10]%N) (txt "warning[line-ending]: invalid line ending
     ./debug-rule.html.twig:1:1
       
1       
2       
       ^ this line ending does not conform to the configured style
       ' use UnixLF (\n) instead: 


")
    [(SWarning, txt "line-ending", txt "invalid line ending", 1, 1)].

(** check/rules/line_ending.rs:88 *)
Definition t_line_ending_88 : bool :=
  fixes (txt "line-ending") ([13;10;65]%N) (txt "
A") true 1.

(** check/rules/line_ending.rs:99 *)
Definition t_line_ending_99 : bool :=
  reports (txt "line-ending") ([104;101;108;108;111;13;10;119;111;114;108;100;13;10]%N) (txt "warning[line-ending]: invalid line ending
     ./debug-rule.html.twig:1:6
       
1       hello
            ^
            '
2       world
       ^ this line ending does not conform to the configured style
       ' use UnixLF (\n) instead: 


warning[line-ending]: invalid line ending
     ./debug-rule.html.twig:2:6
       
2       world
            ^
            '
3       
       ^ this line ending does not conform to the configured style
       ' use UnixLF (\n) instead: 


")
    [(SWarning, txt "line-ending", txt "invalid line ending", 1, 6);
     (SWarning, txt "line-ending", txt "invalid line ending", 2, 6)].

(** check/rules/line_ending.rs:127 *)
Definition t_line_ending_127 : bool :=
  fixes (txt "line-ending") ([104;101;108;108;111;13;10;119;111;114;108;100;13;10]%N) (txt "hello
world
") true 1.

(** check/rules/line_ending.rs:139 *)
Definition t_line_ending_139 : bool :=
  reports (txt "line-ending") ([104;101;108;108;111;13;10;13;10;13;10;119;111;114;108;100]%N) (txt "warning[line-ending]: invalid line ending
     ./debug-rule.html.twig:1:6
       
1       hello
            ^
            '
2       
       ^ this line ending does not conform to the configured style
       ' use UnixLF (\n) instead: 


warning[line-ending]: invalid line ending
     ./debug-rule.html.twig:2:1
       
2       
3       
       ^ this line ending does not conform to the configured style
       ' use UnixLF (\n) instead: 


warning[line-ending]: invalid line ending
     ./debug-rule.html.twig:3:1
       
3       
4       world
       ^ this line ending does not conform to the configured style
       ' use UnixLF (\n) instead: 


")
    [(SWarning, txt "line-ending", txt "invalid line ending", 1, 6);
     (SWarning, txt "line-ending", txt "invalid line ending", 2, 1);
     (SWarning, txt "line-ending", txt "invalid line ending", 3, 1)].

(** check/rules/line_ending.rs:174 *)
Definition t_line_ending_174 : bool :=
  fixes (txt "line-ending") ([104;101;108;108;111;13;10;13;10;13;10;119;111;114;108;100]%N) (txt "hello


world") true 1.

(** check/rules/line_ending.rs:187 *)
Definition t_line_ending_187 : bool :=
  reports (txt "line-ending") ([104;101;108;108;111;10;13;10;119;111;114;108;100]%N) (txt "warning[line-ending]: invalid line ending
     ./debug-rule.html.twig:2:1
       
2       
3       world
       ^ this line ending does not conform to the configured style
       ' use UnixLF (\n) instead: 


")
    [(SWarning, txt "line-ending", txt "invalid line ending", 2, 1)].

(** check/rules/line_ending.rs:202 *)
Definition t_line_ending_202 : bool :=
  fixes (txt "line-ending") ([104;101;108;108;111;10;13;10;119;111;114;108;100]%N) (txt "hello

world") true 1.

(** check/rules/twig_block_duplicate.rs:82 *)
Definition t_twig_block_duplicate_82 : bool :=
  reports (txt "twig-block-duplicate") (txt "
            {% block foo %}
            {% endblock %}

            {% block first_duplicate %}
                {% block foo %}
                {% endblock %}
            {% endblock %}

            {% block second_duplicate %}
                {% block foo %}
                {% endblock %}
            {% endblock %}") (txt "error[twig-block-duplicate]: block name duplicate
     ./debug-rule.html.twig:6:26
   
2               {% block foo %}
                         --- first defined here
   
6                   {% block foo %}
                             ^^^ duplicate block 'foo'

error[twig-block-duplicate]: block name duplicate
      ./debug-rule.html.twig:11:26
    
 2               {% block foo %}
                          --- first defined here
    
11                   {% block foo %}
                              ^^^ duplicate block 'foo'

")
    [(SError, txt "twig-block-duplicate", txt "block name duplicate", 6, 26);
     (SError, txt "twig-block-duplicate", txt "block name duplicate", 11, 26)].

(** check/rules/twig_block_duplicate.rs:122 *)
Definition t_twig_block_duplicate_122 : bool :=
  reports (txt "twig-block-duplicate") (txt "
            {% block foo %}
            {% endblock %}

            {% block first_duplicate %}
                {# ludtwig-ignore twig-block-duplicate #}
                {% block foo %}
                {% endblock %}
            {% endblock %}

            {% block second_duplicate %}
                {# ludtwig-ignore twig-block-duplicate #}
                {% block foo %}
                {% endblock %}
            {% endblock %}") (txt "")
    [].

(** check/rules/twig_block_duplicate.rs:145 *)
Definition t_twig_block_duplicate_145 : bool :=
  reports (txt "twig-block-duplicate") (txt "
            {% block foo %}
            {% endblock %}

            {% block wrapper %}
                {# ludtwig-ignore #}
                {% block foo %}
                {% endblock %}
            {% endblock %}") (txt "")
    [].

(** check/rules/twig_block_duplicate.rs:162 *)
Definition t_twig_block_duplicate_162 : bool :=
  reports (txt "twig-block-duplicate") (txt "
            {% block foo %}
            {% endblock %}

            {% block first_duplicate %}
                {# ludtwig-ignore twig-block-duplicate #}
                {% block foo %}
                {% endblock %}
            {% endblock %}

            {% block third_duplicate %}
                {% block foo %}
                {% endblock %}
            {% endblock %}") (txt "error[twig-block-duplicate]: block name duplicate
      ./debug-rule.html.twig:12:26
    
 2               {% block foo %}
                          --- first defined here
    
12                   {% block foo %}
                              ^^^ duplicate block 'foo'

")
    [(SError, txt "twig-block-duplicate", txt "block name duplicate", 12, 26)].

(** check/rules/twig_block_duplicate.rs:194 *)
Definition t_twig_block_duplicate_194 : bool :=
  reports (txt "twig-block-duplicate") (txt "
            {% block foo %}
            {% endblock %}

            {% block wrapper %}
                {# ludtwig-ignore some-other-rule #}
                {% block foo %}
                {% endblock %}
            {% endblock %}") (txt "error[twig-block-duplicate]: block name duplicate
     ./debug-rule.html.twig:7:26
   
2               {% block foo %}
                         --- first defined here
   
7                   {% block foo %}
                             ^^^ duplicate block 'foo'

")
    [(SError, txt "twig-block-duplicate", txt "block name duplicate", 7, 26)].

(** check/rules/twig_block_line_breaks.rs:177 *)
Definition t_twig_block_line_breaks_177 : bool :=
  reports (txt "twig-block-line-breaks") (txt "{% block my_block %}
    <div cla-ss=""my-div"">
        {% block inner_a %}
            hello
        {% endblock %}
        {% block inner_b %}
            world
        {% endblock %}
        <hr/>
        {% block inner_c %}
            {% block inner_c_inner %}
                abc
            {% endblock %}
        {% endblock %}
    </div>
{% endblock %}") (txt "help[twig-block-line-breaks]: Wrong line break around block
     ./debug-rule.html.twig:5:23
       
5               {% endblock %}
                             ^
                             '
6               {% block inner_b %}
       ^ Expected 2 line breaks here
       ' Change to 2 line breaks: 



help[twig-block-line-breaks]: Wrong line break around block
     ./debug-rule.html.twig:8:23
       
8               {% endblock %}
                             ^
                             '
9               <hr/>
       ^ Expected 2 line breaks here
       ' Change to 2 line breaks: 



help[twig-block-line-breaks]: Wrong line break around block
      ./debug-rule.html.twig:9:14
        
 9               <hr/>
                     ^
                     '
10               {% block inner_c %}
        ^ Expected 2 line breaks here
        ' Change to 2 line breaks: 



")
    [(SHelp, txt "twig-block-line-breaks", txt "Wrong line break around block", 5, 23);
     (SHelp, txt "twig-block-line-breaks", txt "Wrong line break around block", 8, 23);
     (SHelp, txt "twig-block-line-breaks", txt "Wrong line break around block", 9, 14)].

(** check/rules/twig_block_line_breaks.rs:238 *)
Definition t_twig_block_line_breaks_238 : bool :=
  fixes (txt "twig-block-line-breaks") (txt "{% block my_block %}
    <div cla-ss=""my-div"">
        {% block inner_a %}
            hello
        {% endblock %}
        {% block inner_b %}
            world
        {% endblock %}
        <hr/>
        {% block inner_c %}
            {% block inner_c_inner %}
                abc
            {% endblock %}
        {% endblock %}
    </div>
{% endblock %}") (txt "{% block my_block %}
    <div cla-ss=""my-div"">
        {% block inner_a %}
            hello
        {% endblock %}

        {% block inner_b %}
            world
        {% endblock %}

        <hr/>

        {% block inner_c %}
            {% block inner_c_inner %}
                abc
            {% endblock %}
        {% endblock %}
    </div>
{% endblock %}") true 1.

(** check/rules/twig_block_line_breaks.rs:281 *)
Definition t_twig_block_line_breaks_281 : bool :=
  reports (txt "twig-block-line-breaks") (txt "{% block my_block %}
                hello
            {% endblock %}
            {%block another %}
                world
            {% endblock %}") (txt "help[twig-block-line-breaks]: Wrong line break around block
     ./debug-rule.html.twig:3:27
       
3                   {% endblock %}
                                 ^
                                 '
4                   {%block another %}
       ^ Expected 2 line breaks here
       ' Change to 2 line breaks: 



")
    [(SHelp, txt "twig-block-line-breaks", txt "Wrong line break around block", 3, 27)].

(** check/rules/twig_block_line_breaks.rs:308 *)
Definition t_twig_block_line_breaks_308 : bool :=
  fixes (txt "twig-block-line-breaks") (txt "{% block my_block %}
                hello
            {% endblock %}
            {%block another %}
                world
            {% endblock %}") (txt "{% block my_block %}
                hello
            {% endblock %}

            {%block another %}
                world
            {% endblock %}") true 1.

(** check/rules/twig_block_line_breaks.rs:328 *)
Definition t_twig_block_line_breaks_328 : bool :=
  fixes (txt "twig-block-line-breaks") (txt "{# @deprecated tag:v6.7.0 - Block will be removed. #}
{% block outer_block %}
    {# @deprecated tag:v6.7.0 - Block will be removed. #}
    {% block inner_a %}
        a
    {% endblock %}
    {# @deprecated tag:v6.7.0 - Block will be removed. #}
    {% block inner_b %}
        b
    {% endblock %}
    {# something wrong here #}
    <img src=""""/>
    {# @deprecated tag:v6.7.0 - Block will be removed. #}
    {% block inner_c %}
        c
    {% endblock %}
{% endblock %}") (txt "{# @deprecated tag:v6.7.0 - Block will be removed. #}
{% block outer_block %}
    {# @deprecated tag:v6.7.0 - Block will be removed. #}
    {% block inner_a %}
        a
    {% endblock %}

    {# @deprecated tag:v6.7.0 - Block will be removed. #}
    {% block inner_b %}
        b
    {% endblock %}

    {# something wrong here #}
    <img src=""""/>

    {# @deprecated tag:v6.7.0 - Block will be removed. #}
    {% block inner_c %}
        c
    {% endblock %}
{% endblock %}") true 1.

(** check/rules/twig_block_line_breaks.rs:372 *)
Definition t_twig_block_line_breaks_372 : bool :=
  reports (txt "twig-block-line-breaks") (txt "{# @deprecated tag:v6.7.0 - Block will be removed. #}
{% block component_address_address_editor_modal_inner %}
    {# @deprecated tag:v6.7.0 - Block will be removed. #}
    {% block component_address_address_editor_modal_accordion_overview %}
        {% if not page.address %}
            {# @deprecated tag:v6.7.0 - Block will be removed. #}
            {% block component_address_address_editor_modal_accordion_overview_billing %}
                hello
            {% endblock %}
        {% endif %}
    {% endblock %}
{% endblock %}") (txt "")
    [].

(** check/rules/twig_block_line_breaks.rs:392 *)
Definition t_twig_block_line_breaks_392 : bool :=
  fixes (txt "twig-block-line-breaks") (txt "{# @deprecated tag:v6.7.0 - Block will be removed. #}
{% block component_address_address_editor_modal_inner %}
    {# @deprecated tag:v6.7.0 - Block will be removed. #}
    {% block component_address_address_editor_modal_accordion_overview %}
        {% if not page.address %}
            {# @deprecated tag:v6.7.0 - Block will be removed. #}
            {% block component_address_address_editor_modal_accordion_overview_billing %}
                hello
            {% endblock %}
        {% endif %}
    {% endblock %}
{% endblock %}") (txt "{# @deprecated tag:v6.7.0 - Block will be removed. #}
{% block component_address_address_editor_modal_inner %}
    {# @deprecated tag:v6.7.0 - Block will be removed. #}
    {% block component_address_address_editor_modal_accordion_overview %}
        {% if not page.address %}
            {# @deprecated tag:v6.7.0 - Block will be removed. #}
            {% block component_address_address_editor_modal_accordion_overview_billing %}
                hello
            {% endblock %}
        {% endif %}
    {% endblock %}
{% endblock %}") false 0.

(** check/rules/twig_block_line_breaks.rs:423 *)
Definition t_twig_block_line_breaks_423 : bool :=
  reports (txt "twig-block-line-breaks") (txt "<pre>
    {% block inner_a %}
        hello
    {% endblock %}
    {% block inner_b %}
        world
        
    {% endblock %}
            </pre>
            <pre>
                <code>
    {% block inner_a %}
        hello
    {% endblock %}
    {% block inner_b %}
        world
        
    {% endblock %}
                </code>
            </pre>
            <textarea>
    {% block inner_a %}
        hello
    {% endblock %}
    {% block inner_b %}
        world
        
    {% endblock %}
            </textarea>
            <textarea>
                <p>
    {% block inner_a %}
        hello
    {% endblock %}
    {% block inner_b %}
        world
        
    {% endblock %}
                </p>
            </textarea>
<div>
    {% block inner_a %}
        hello
    {% endblock %}
    {% block inner_b %}
        world
    {% endblock %}
</div>") (txt "help[twig-block-line-breaks]: Wrong line break around block
      ./debug-rule.html.twig:44:19
        
44           {% endblock %}
                          ^
                          '
45           {% block inner_b %}
        ^ Expected 2 line breaks here
        ' Change to 2 line breaks: 



")
    [(SHelp, txt "twig-block-line-breaks", txt "Wrong line break around block", 44, 19)].

(** check/rules/twig_block_line_breaks.rs:492 *)
Definition t_twig_block_line_breaks_492 : bool :=
  reports (txt "twig-block-line-breaks") (txt "
                <div class=""{% block my_string_block %}hello{% endblock %}"">
                </div>
        ") (txt "")
    [].

(** check/rules/twig_block_name_snake_case.rs:47 *)
Definition t_twig_block_name_snake_case_47 : bool :=
  reports (txt "twig-block-name-snake-case") (txt "{% block a-b %}hello{% endblock %}") (txt "help[twig-block-name-snake-case]: Block name is not written in snake_case
     ./debug-rule.html.twig:1:10
   
1   {% block a-b %}hello{% endblock %}
             ^^^
              
             help: rename this block in snake_case
             Try this name instead: a_b

")
    [(SHelp, txt "twig-block-name-snake-case", txt "Block name is not written in snake_case", 1, 10)].

(** check/rules/twig_block_name_snake_case.rs:66 *)
Definition t_twig_block_name_snake_case_66 : bool :=
  fixes (txt "twig-block-name-snake-case") (txt "{% block a-b %}hello{% endblock %}") (txt "{% block a_b %}hello{% endblock %}") true 1.

(** check/rules/twig_hash_key_no_quotes.rs:73 *)
Definition t_twig_hash_key_no_quotes_73 : bool :=
  reports (txt "twig-hash-key-no-quotes") (txt "{% set v = { 'myKey': 42 } %}") (txt "help[twig-hash-key-no-quotes]: unnecessary quotation
     ./debug-rule.html.twig:1:14
   
1   {% set v = { 'myKey': 42 } %}
                 ^^^^^^^
                        
                       remove this quote: 
                 help: remove quotation
                 remove this quote: 

")
    [(SHelp, txt "twig-hash-key-no-quotes", txt "unnecessary quotation", 1, 14)].

(** check/rules/twig_hash_key_no_quotes.rs:93 *)
Definition t_twig_hash_key_no_quotes_93 : bool :=
  reports (txt "twig-hash-key-no-quotes") (txt "{% set v = { 'my-key': 42 } %}") (txt "")
    [].

(** check/rules/twig_hash_key_no_quotes.rs:102 *)
Definition t_twig_hash_key_no_quotes_102 : bool :=
  fixes (txt "twig-hash-key-no-quotes") (txt "{% set v = { 'myKey': 42 } %}") (txt "{% set v = { myKey: 42 } %}") true 1.

(** check/rules/twig_hash_key_no_quotes.rs:111 *)
Definition t_twig_hash_key_no_quotes_111 : bool :=
  fixes (txt "twig-hash-key-no-quotes") (txt "{{ 'replace "" this quote'|replace({'""': 'another quote with'}) }}") (txt "{{ 'replace "" this quote'|replace({'""': 'another quote with'}) }}") false 0.

(** check/rules/twig_json_encode_escape_js.rs:83 *)
Definition t_twig_json_encode_escape_js_83 : bool :=
  reports (txt "twig-json-encode-escape-js") (txt "{{ a|json_encode|raw }}") (txt "warning[twig-json-encode-escape-js]: avoid raw after json_encode; use escape('js')
     ./debug-rule.html.twig:1:18
   
1   {{ a|json_encode|raw }}
                     ^^^
                      
                     help: replace 'raw' with escape('js')
                     Try this filter instead: escape('js')

")
    [(SWarning, txt "twig-json-encode-escape-js", txt "avoid raw after json_encode; use escape('js')", 1, 18)].

(** check/rules/twig_json_encode_escape_js.rs:102 *)
Definition t_twig_json_encode_escape_js_102 : bool :=
  fixes (txt "twig-json-encode-escape-js") (txt "{{ a|json_encode|raw }}") (txt "{{ a|json_encode|escape('js') }}") true 1.

(** check/rules/twig_json_encode_escape_js.rs:111 *)
Definition t_twig_json_encode_escape_js_111 : bool :=
  fixes (txt "twig-json-encode-escape-js") (txt "{{ breakpoint|json_encode()|raw }}") (txt "{{ breakpoint|json_encode()|escape('js') }}") true 1.

(** check/rules/twig_json_encode_escape_js.rs:120 *)
Definition t_twig_json_encode_escape_js_120 : bool :=
  fixes (txt "twig-json-encode-escape-js") (txt "data-magnifier-options='{{ magnifierOptions|json_encode|raw }}'") (txt "data-magnifier-options='{{ magnifierOptions|json_encode|escape('js') }}'") true 1.

(** check/rules/twig_json_encode_escape_js.rs:129 *)
Definition t_twig_json_encode_escape_js_129 : bool :=
  fixes (txt "twig-json-encode-escape-js") (txt "{{ getAllFeatures()|json_encode|raw }}") (txt "{{ getAllFeatures()|json_encode|escape('js') }}") true 1.

(** check/rules/twig_json_encode_escape_js.rs:138 *)
Definition t_twig_json_encode_escape_js_138 : bool :=
  fixes (txt "twig-json-encode-escape-js") (txt "{{ a|raw }}") (txt "{{ a|raw }}") false 0.

(** check/rules/twig_json_encode_escape_js.rs:147 *)
Definition t_twig_json_encode_escape_js_147 : bool :=
  fixes (txt "twig-json-encode-escape-js") (txt "{{ a|json_encode|escape('js') }}") (txt "{{ a|json_encode|escape('js') }}") false 0.

(** check/rules/twig_logic_and.rs:42 *)
Definition t_twig_logic_and_42 : bool :=
  reports (txt "twig-logic-and") (txt "{% if a == 5 && b %}hello{% endif %}") (txt "error[twig-logic-and]: '&&' is not a valid twig operator
     ./debug-rule.html.twig:1:14
   
1   {% if a == 5 && b %}hello{% endif %}
                 ^^
                  
                 help: change this operator
                 Try this operator instead: and

")
    [(SError, txt "twig-logic-and", txt "'&&' is not a valid twig operator", 1, 14)].

(** check/rules/twig_logic_and.rs:61 *)
Definition t_twig_logic_and_61 : bool :=
  fixes (txt "twig-logic-and") (txt "{% if a == 5 && b %}hello{% endif %}") (txt "{% if a == 5 and b %}hello{% endif %}") true 1.

(** check/rules/twig_logic_or.rs:43 *)
Definition t_twig_logic_or_43 : bool :=
  reports (txt "twig-logic-or") (txt "{% if a == 5 || b %}hello{% endif %}") (txt "error[twig-logic-or]: '||' is not a valid twig operator
     ./debug-rule.html.twig:1:14
   
1   {% if a == 5 || b %}hello{% endif %}
                 ^^
                  
                 help: change this operator
                 Try this operator instead: or

")
    [(SError, txt "twig-logic-or", txt "'||' is not a valid twig operator", 1, 14)].

(** check/rules/twig_logic_or.rs:62 *)
Definition t_twig_logic_or_62 : bool :=
  fixes (txt "twig-logic-or") (txt "{% if a == 5 || b %}hello{% endif %}") (txt "{% if a == 5 or b %}hello{% endif %}") true 1.

(** check/rules/twig_prefer_shopware_extends.rs:44 *)
Definition t_twig_prefer_shopware_extends_44 : bool :=
  reports (txt "twig-prefer-shopware-extends") (txt "{% extends foo %}") (txt "warning[twig-prefer-shopware-extends]: prefer 'sw_extends' over 'extends' in shopware
     ./debug-rule.html.twig:1:1
   
1   {% extends foo %}
    ^^^^^^^^^^^^^^^^^
        
       Try this keyword instead: sw_extends
    change this 'extends' to 'sw_extends'

")
    [(SWarning, txt "twig-prefer-shopware-extends", txt "prefer 'sw_extends' over 'extends' in shopware", 1, 1)].

(** check/rules/twig_prefer_shopware_extends.rs:63 *)
Definition t_twig_prefer_shopware_extends_63 : bool :=
  fixes (txt "twig-prefer-shopware-extends") (txt "{% extends foo %}") (txt "{% sw_extends foo %}") true 1.

(** check/rules/twig_string_quotation.rs:109 *)
Definition t_twig_string_quotation_109 : bool :=
  reports (txt "twig-string-quotation") (txt "{{ ""double-quoted"" }}") (txt "help[twig-string-quotation]: wrong quotation
     ./debug-rule.html.twig:1:4
   
1   {{ ""double-quoted"" }}
       ^^^^^^^^^^^^^^^
                      
                     Try this quote instead: '
       help: change the quotation to single quotes (')
       Try this quote instead: '

")
    [(SHelp, txt "twig-string-quotation", txt "wrong quotation", 1, 4)].

(** check/rules/twig_string_quotation.rs:129 *)
Definition t_twig_string_quotation_129 : bool :=
  reports (txt "twig-string-quotation") (txt "{{ ""doesn't"" }}") (txt "help[twig-string-quotation]: wrong quotation
     ./debug-rule.html.twig:1:4
   
1   {{ ""doesn't"" }}
       ^^^^^^^^^ help: change the quotation to single quotes (')

")
    [(SHelp, txt "twig-string-quotation", txt "wrong quotation", 1, 4)].

(** check/rules/twig_string_quotation.rs:145 *)
Definition t_twig_string_quotation_145 : bool :=
  reports (txt "twig-string-quotation") (txt "{{ ""/#{prefix}/phoneNumber"" }}") (txt "")
    [].

(** check/rules/twig_string_quotation.rs:154 *)
Definition t_twig_string_quotation_154 : bool :=
  fixes (txt "twig-string-quotation") (txt "{{ ""double-quoted"" }}") (txt "{{ 'double-quoted' }}") true 1.

(** check/rules/twig_string_quotation.rs:163 *)
Definition t_twig_string_quotation_163 : bool :=
  fixes (txt "twig-string-quotation") (txt "{{ ""doesn't"" }}") (txt "{{ ""doesn't"" }}") false 0.

(** check/rules/twig_use_is_not_same_as.rs:48 *)
Definition t_twig_use_is_not_same_as_48 : bool :=
  reports (txt "twig-use-is-not-same-as") (txt "{% if test !== false %}{% endif %}") (txt "error[twig-use-is-not-same-as]: !== is not a valid twig operator
     ./debug-rule.html.twig:1:12
   
1   {% if test !== false %}{% endif %}
               ^^^------
                
               Try this instead: is not same as(false)
               This is not a valid Twig operator, try 'is not same as(condition)' instead

")
    [(SError, txt "twig-use-is-not-same-as", txt "!== is not a valid twig operator", 1, 12)].

(** check/rules/twig_use_is_not_same_as.rs:67 *)
Definition t_twig_use_is_not_same_as_67 : bool :=
  fixes (txt "twig-use-is-not-same-as") (txt "{% if test !== false %}{% endif %}") (txt "{% if test is not same as(false) %}{% endif %}") true 1.

(** check/rules/twig_use_is_not_same_as.rs:76 *)
Definition t_twig_use_is_not_same_as_76 : bool :=
  fixes (txt "twig-use-is-not-same-as") (txt "{% if test !== 42 + 4 * 2 %}{% endif %}") (txt "{% if test is not same as(42 + 4 * 2) %}{% endif %}") true 1.

(** check/rules/twig_use_is_same_as.rs:48 *)
Definition t_twig_use_is_same_as_48 : bool :=
  reports (txt "twig-use-is-same-as") (txt "{% if a === 5 %}hello{% endif %}") (txt "error[twig-use-is-same-as]: === is not a valid twig operator
     ./debug-rule.html.twig:1:9
   
1   {% if a === 5 %}hello{% endif %}
            ^^^--
             
            Try this instead: is same as(5)
            This is not a valid Twig operator, try 'is same as(condition)' instead

")
    [(SError, txt "twig-use-is-same-as", txt "=== is not a valid twig operator", 1, 9)].

(** check/rules/twig_use_is_same_as.rs:67 *)
Definition t_twig_use_is_same_as_67 : bool :=
  fixes (txt "twig-use-is-same-as") (txt "{% if test === false %}{% endif %}") (txt "{% if test is same as(false) %}{% endif %}") true 1.

(** check/rules/twig_use_is_same_as.rs:76 *)
Definition t_twig_use_is_same_as_76 : bool :=
  fixes (txt "twig-use-is-same-as") (txt "{% if test === 42 + 4 * 2 %}{% endif %}") (txt "{% if test is same as(42 + 4 * 2) %}{% endif %}") true 1.

(** check/rules/twig_valid_filter.rs:61 *)
Definition t_twig_valid_filter_61 : bool :=
  reports (txt "twig-valid-filter") (txt "{{ name|lower }}") (txt "")
    [].

(** check/rules/twig_valid_filter.rs:66 *)
Definition t_twig_valid_filter_66 : bool :=
  reports (txt "twig-valid-filter") (txt "{{ date|date('Y-m-d') }}") (txt "")
    [].

(** check/rules/twig_valid_filter.rs:71 *)
Definition t_twig_valid_filter_71 : bool :=
  reports (txt "twig-valid-filter") (txt "{{ name|unknown_filter }}") (txt "warning[twig-valid-filter]: unknown twig filter 'unknown_filter'
     ./debug-rule.html.twig:1:9
   
1   {{ name|unknown_filter }}
            ^^^^^^^^^^^^^^ this filter is not in the valid-filters config

")
    [(SWarning, txt "twig-valid-filter", txt "unknown twig filter 'unknown_filter'", 1, 9)].

(** check/rules/twig_valid_filter.rs:87 *)
Definition t_twig_valid_filter_87 : bool :=
  reports (txt "twig-valid-filter") (txt "{{ name|unknown_filter('arg') }}") (txt "warning[twig-valid-filter]: unknown twig filter 'unknown_filter'
     ./debug-rule.html.twig:1:9
   
1   {{ name|unknown_filter('arg') }}
            ^^^^^^^^^^^^^^ this filter is not in the valid-filters config

")
    [(SWarning, txt "twig-valid-filter", txt "unknown twig filter 'unknown_filter'", 1, 9)].

(** check/rules/twig_valid_filter.rs:103 *)
Definition t_twig_valid_filter_103 : bool :=
  reports (txt "twig-valid-filter") (txt "{{ name|lower|upper }}") (txt "")
    [].

(** check/rules/twig_valid_filter.rs:108 *)
Definition t_twig_valid_filter_108 : bool :=
  reports (txt "twig-valid-filter") (txt "{{ name|lower|unknown_custom }}") (txt "warning[twig-valid-filter]: unknown twig filter 'unknown_custom'
     ./debug-rule.html.twig:1:15
   
1   {{ name|lower|unknown_custom }}
                  ^^^^^^^^^^^^^^ this filter is not in the valid-filters config

")
    [(SWarning, txt "twig-valid-filter", txt "unknown twig filter 'unknown_custom'", 1, 15)].

(** check/rules/twig_valid_function.rs:84 *)
Definition t_twig_valid_function_84 : bool :=
  reports (txt "twig-valid-function") (txt "{{ dump(var) }}") (txt "")
    [].

(** check/rules/twig_valid_function.rs:89 *)
Definition t_twig_valid_function_89 : bool :=
  reports (txt "twig-valid-function") (txt "{{ unknown_func(var) }}") (txt "warning[twig-valid-function]: unknown twig function 'unknown_func'
     ./debug-rule.html.twig:1:4
   
1   {{ unknown_func(var) }}
       ^^^^^^^^^^^^ this function is not in the valid-functions config

")
    [(SWarning, txt "twig-valid-function", txt "unknown twig function 'unknown_func'", 1, 4)].

(** check/rules/twig_valid_function.rs:105 *)
Definition t_twig_valid_function_105 : bool :=
  reports (txt "twig-valid-function") (txt "{{ name|date('Y-m-d') }}") (txt "")
    [].

(** check/rules/twig_valid_function.rs:114 *)
Definition t_twig_valid_function_114 : bool :=
  reports (txt "twig-valid-function") (txt "{% if foo is same as(bar) %}{% endif %}") (txt "")
    [].

(** check/rules/twig_valid_function.rs:123 *)
Definition t_twig_valid_function_123 : bool :=
  reports (txt "twig-valid-function") (txt "{% if foo is not divisible by(3) %}{% endif %}") (txt "")
    [].

(** check/rules/twig_valid_function.rs:132 *)
Definition t_twig_valid_function_132 : bool :=
  reports (txt "twig-valid-function") (txt "{% if unknown_func(var) is defined %}{% endif %}") (txt "warning[twig-valid-function]: unknown twig function 'unknown_func'
     ./debug-rule.html.twig:1:7
   
1   {% if unknown_func(var) is defined %}{% endif %}
          ^^^^^^^^^^^^ this function is not in the valid-functions config

")
    [(SWarning, txt "twig-valid-function", txt "unknown twig function 'unknown_func'", 1, 7)].

(** check/rules/twig_valid_function.rs:148 *)
Definition t_twig_valid_function_148 : bool :=
  reports (txt "twig-valid-function") (txt "{% if unknown_func(var) is not defined %}{% endif %}") (txt "warning[twig-valid-function]: unknown twig function 'unknown_func'
     ./debug-rule.html.twig:1:7
   
1   {% if unknown_func(var) is not defined %}{% endif %}
          ^^^^^^^^^^^^ this function is not in the valid-functions config

")
    [(SWarning, txt "twig-valid-function", txt "unknown twig function 'unknown_func'", 1, 7)].

(** check/rules/twig_valid_function.rs:164 *)
Definition t_twig_valid_function_164 : bool :=
  reports (txt "twig-valid-function") (txt "{% if dump(var) is defined %}{% endif %}") (txt "")
    [].

(** check/rules/twig_valid_function.rs:173 *)
Definition t_twig_valid_function_173 : bool :=
  reports (txt "twig-valid-function") (txt "{% for i in range(0, 10) %}{{ i }}{% endfor %}") (txt "")
    [].

(** check/rules/twig_valid_function.rs:185 *)
Definition t_twig_valid_function_185 : bool :=
  reports (txt "twig-valid-function") (txt "{{ foo.bar() }}") (txt "")
    [].

(** check/rules/twig_valid_test.rs:75 *)
Definition t_twig_valid_test_75 : bool :=
  reports (txt "twig-valid-test") (txt "{% if foo is defined %}{% endif %}") (txt "")
    [].

(** check/rules/twig_valid_test.rs:84 *)
Definition t_twig_valid_test_84 : bool :=
  reports (txt "twig-valid-test") (txt "{% if foo is not empty %}{% endif %}") (txt "")
    [].

(** check/rules/twig_valid_test.rs:93 *)
Definition t_twig_valid_test_93 : bool :=
  reports (txt "twig-valid-test") (txt "{{ foo is same as(false) }}") (txt "")
    [].

(** check/rules/twig_valid_test.rs:102 *)
Definition t_twig_valid_test_102 : bool :=
  reports (txt "twig-valid-test") (txt "{{ foo is divisible by(3) }}") (txt "")
    [].

(** check/rules/twig_valid_test.rs:111 *)
Definition t_twig_valid_test_111 : bool :=
  reports (txt "twig-valid-test") (txt "{% if foo is unknown_test %}{% endif %}") (txt "warning[twig-valid-test]: unknown twig test 'unknown_test'
     ./debug-rule.html.twig:1:14
   
1   {% if foo is unknown_test %}{% endif %}
                 ^^^^^^^^^^^^ this test is not in the valid-tests config

")
    [(SWarning, txt "twig-valid-test", txt "unknown twig test 'unknown_test'", 1, 14)].

(** check/rules/twig_valid_test.rs:127 *)
Definition t_twig_valid_test_127 : bool :=
  reports (txt "twig-valid-test") (txt "{% if foo is not unknown_test %}{% endif %}") (txt "warning[twig-valid-test]: unknown twig test 'unknown_test'
     ./debug-rule.html.twig:1:18
   
1   {% if foo is not unknown_test %}{% endif %}
                     ^^^^^^^^^^^^ this test is not in the valid-tests config

")
    [(SWarning, txt "twig-valid-test", txt "unknown twig test 'unknown_test'", 1, 18)].

(** check/rules/twig_variable_definition_naming.rs:106 *)
Definition t_twig_variable_definition_naming_106 : bool :=
  reports (txt "twig-variable-definition-naming") (txt "{% set my_variable = 'hello' %}") (txt "help[twig-variable-definition-naming]: twig variable name is not in camelCase
     ./debug-rule.html.twig:1:8
   
1   {% set my_variable = 'hello' %}
           ^^^^^^^^^^^ rename 'my_variable' to camelCase

")
    [(SHelp, txt "twig-variable-definition-naming", txt "twig variable name is not in camelCase", 1, 8)].

(** check/rules/twig_variable_definition_naming.rs:122 *)
Definition t_twig_variable_definition_naming_122 : bool :=
  reports (txt "twig-variable-definition-naming") (txt "{% set myVariable2 = constant('hello') %}") (txt "help[twig-variable-definition-naming]: twig constant name is not in SCREAMING_SNAKE_CASE
     ./debug-rule.html.twig:1:8
   
1   {% set myVariable2 = constant('hello') %}
           ^^^^^^^^^^^ rename 'myVariable2' to MY_VARIABLE2

")
    [(SHelp, txt "twig-variable-definition-naming", txt "twig constant name is not in SCREAMING_SNAKE_CASE", 1, 8)].

(** check/rules/twig_variable_definition_naming.rs:138 *)
Definition t_twig_variable_definition_naming_138 : bool :=
  reports (txt "twig-variable-definition-naming") (txt "{% set my_variable = constant('hello') %}") (txt "help[twig-variable-definition-naming]: twig constant name is not in SCREAMING_SNAKE_CASE
     ./debug-rule.html.twig:1:8
   
1   {% set my_variable = constant('hello') %}
           ^^^^^^^^^^^ rename 'my_variable' to MY_VARIABLE

")
    [(SHelp, txt "twig-variable-definition-naming", txt "twig constant name is not in SCREAMING_SNAKE_CASE", 1, 8)].

(** check/rules/twig_variable_definition_naming.rs:154 *)
Definition t_twig_variable_definition_naming_154 : bool :=
  reports (txt "twig-variable-definition-naming") (txt "{% set myVariable = 'hello' %}") (txt "")
    [].

(** check/rules/twig_variable_definition_naming.rs:163 *)
Definition t_twig_variable_definition_naming_163 : bool :=
  reports (txt "twig-variable-definition-naming") (txt "{% for my_item in items %}{{ my_item }}{% endfor %}") (txt "help[twig-variable-definition-naming]: twig variable name is not in camelCase
     ./debug-rule.html.twig:1:8
   
1   {% for my_item in items %}{{ my_item }}{% endfor %}
           ^^^^^^^ rename 'my_item' to camelCase

")
    [(SHelp, txt "twig-variable-definition-naming", txt "twig variable name is not in camelCase", 1, 8)].

(** check/rules/twig_variable_definition_naming.rs:179 *)
Definition t_twig_variable_definition_naming_179 : bool :=
  reports (txt "twig-variable-definition-naming") (txt "{% for myItem in items %}{{ myItem }}{% endfor %}") (txt "")
    [].

(** check/rules/twig_variable_definition_naming.rs:188 *)
Definition t_twig_variable_definition_naming_188 : bool :=
  reports (txt "twig-variable-definition-naming") (txt "{% set _privateVar = 'hello' %}") (txt "")
    [].

(** check/rules/twig_variable_definition_naming.rs:197 *)
Definition t_twig_variable_definition_naming_197 : bool :=
  reports (txt "twig-variable-definition-naming") (txt "{% for my_key, my_value in items %}{% endfor %}") (txt "help[twig-variable-definition-naming]: twig variable name is not in camelCase
     ./debug-rule.html.twig:1:8
   
1   {% for my_key, my_value in items %}{% endfor %}
           ^^^^^^ rename 'my_key' to camelCase

help[twig-variable-definition-naming]: twig variable name is not in camelCase
     ./debug-rule.html.twig:1:16
   
1   {% for my_key, my_value in items %}{% endfor %}
                   ^^^^^^^^ rename 'my_value' to camelCase

")
    [(SHelp, txt "twig-variable-definition-naming", txt "twig variable name is not in camelCase", 1, 8);
     (SHelp, txt "twig-variable-definition-naming", txt "twig variable name is not in camelCase", 1, 16)].

(** check/rules/twig_variable_definition_naming.rs:219 *)
Definition t_twig_variable_definition_naming_219 : bool :=
  reports (txt "twig-variable-definition-naming") (txt "{% set name = 'hello' %}") (txt "")
    [].

(** check/rules/twig_variable_definition_naming.rs:229 *)
Definition t_twig_variable_definition_naming_229 : bool :=
  reports (txt "twig-variable-definition-naming") (txt "{% set myVar = snake_case_rhs %}") (txt "")
    [].

(** check/rules/twig_variable_definition_naming.rs:239 *)
Definition t_twig_variable_definition_naming_239 : bool :=
  reports (txt "twig-variable-definition-naming") (txt "{% for item in snake_items %}{% endfor %}") (txt "")
    [].

(** check/rules/twig_variable_definition_naming.rs:248 *)
Definition t_twig_variable_definition_naming_248 : bool :=
  reports (txt "twig-variable-definition-naming") (txt "{% set MyVar = 'hello' %}") (txt "help[twig-variable-definition-naming]: twig variable name is not in camelCase
     ./debug-rule.html.twig:1:8
   
1   {% set MyVar = 'hello' %}
           ^^^^^ rename 'MyVar' to camelCase

")
    [(SHelp, txt "twig-variable-definition-naming", txt "twig variable name is not in camelCase", 1, 8)].

(** check/rules/twig_variable_definition_naming.rs:264 *)
Definition t_twig_variable_definition_naming_264 : bool :=
  fixes (txt "twig-variable-definition-naming") (txt "{% set my_variable = constant('hello') %}") (txt "{% set my_variable = constant('hello') %}") false 0.

(** check/rules/twig_variable_definition_naming.rs:270 *)
Definition t_twig_variable_definition_naming_270 : bool :=
  fixes (txt "twig-variable-definition-naming") (txt "{% set my_variable = 'hello' %}") (txt "{% set my_variable = 'hello' %}") false 0.

(** check/rules/twig_variable_definition_naming.rs:276 *)
Definition t_twig_variable_definition_naming_276 : bool :=
  fixes (txt "twig-variable-definition-naming") (txt "{% for my_key, my_value in items %}{% endfor %}") (txt "{% for my_key, my_value in items %}{% endfor %}") false 0.

(** check/rules/whitespace_between_line_breaks.rs:48 *)
Definition t_whitespace_between_line_breaks_48 : bool :=
  reports (txt "whitespace-between-line-breaks") (txt "{% block my_block %}
	
            <hr/>
{% endblock %}") (txt "help[whitespace-between-line-breaks]: Whitespace between line breaks
     ./debug-rule.html.twig:2:1
   
2       
    ^^^^
        
    Unexpected whitespace on empty line
    Remove whitespace: 

")
    [(SHelp, txt "whitespace-between-line-breaks", txt "Whitespace between line breaks", 2, 1)].

(** check/rules/whitespace_between_line_breaks.rs:70 *)
Definition t_whitespace_between_line_breaks_70 : bool :=
  fixes (txt "whitespace-between-line-breaks") (txt "{% block my_block %}
	
            <hr/>
{% endblock %}") (txt "{% block my_block %}

            <hr/>
{% endblock %}") true 1.

Example rule_tests : forallb (fun b => b)
  [t_html_attribute_name_kebab_case_56;
   t_html_attribute_name_kebab_case_75;
   t_html_attribute_name_kebab_case_84;
   t_html_duplicate_id_107;
   t_html_duplicate_id_128;
   t_html_duplicate_id_139;
   t_html_duplicate_id_149;
   t_html_duplicate_id_160;
   t_html_duplicate_id_171;
   t_html_duplicate_id_195;
   t_html_duplicate_id_216;
   t_html_string_quotation_97;
   t_html_string_quotation_117;
   t_html_string_quotation_133;
   t_html_string_quotation_152;
   t_html_string_quotation_161;
   t_html_string_quotation_170;
   t_indentation_338;
   t_indentation_379;
   t_indentation_437;
   t_indentation_464;
   t_indentation_482;
   t_indentation_502;
   t_line_ending_73;
   t_line_ending_88;
   t_line_ending_99;
   t_line_ending_127;
   t_line_ending_139;
   t_line_ending_174;
   t_line_ending_187;
   t_line_ending_202;
   t_twig_block_duplicate_82;
   t_twig_block_duplicate_122;
   t_twig_block_duplicate_145;
   t_twig_block_duplicate_162;
   t_twig_block_duplicate_194;
   t_twig_block_line_breaks_177;
   t_twig_block_line_breaks_238;
   t_twig_block_line_breaks_281;
   t_twig_block_line_breaks_308;
   t_twig_block_line_breaks_328;
   t_twig_block_line_breaks_372;
   t_twig_block_line_breaks_392;
   t_twig_block_line_breaks_423;
   t_twig_block_line_breaks_492;
   t_twig_block_name_snake_case_47;
   t_twig_block_name_snake_case_66;
   t_twig_hash_key_no_quotes_73;
   t_twig_hash_key_no_quotes_93;
   t_twig_hash_key_no_quotes_102;
   t_twig_hash_key_no_quotes_111;
   t_twig_json_encode_escape_js_83;
   t_twig_json_encode_escape_js_102;
   t_twig_json_encode_escape_js_111;
   t_twig_json_encode_escape_js_120;
   t_twig_json_encode_escape_js_129;
   t_twig_json_encode_escape_js_138;
   t_twig_json_encode_escape_js_147;
   t_twig_logic_and_42;
   t_twig_logic_and_61;
   t_twig_logic_or_43;
   t_twig_logic_or_62;
   t_twig_prefer_shopware_extends_44;
   t_twig_prefer_shopware_extends_63;
   t_twig_string_quotation_109;
   t_twig_string_quotation_129;
   t_twig_string_quotation_145;
   t_twig_string_quotation_154;
   t_twig_string_quotation_163;
   t_twig_use_is_not_same_as_48;
   t_twig_use_is_not_same_as_67;
   t_twig_use_is_not_same_as_76;
   t_twig_use_is_same_as_48;
   t_twig_use_is_same_as_67;
   t_twig_use_is_same_as_76;
   t_twig_valid_filter_61;
   t_twig_valid_filter_66;
   t_twig_valid_filter_71;
   t_twig_valid_filter_87;
   t_twig_valid_filter_103;
   t_twig_valid_filter_108;
   t_twig_valid_function_84;
   t_twig_valid_function_89;
   t_twig_valid_function_105;
   t_twig_valid_function_114;
   t_twig_valid_function_123;
   t_twig_valid_function_132;
   t_twig_valid_function_148;
   t_twig_valid_function_164;
   t_twig_valid_function_173;
   t_twig_valid_function_185;
   t_twig_valid_test_75;
   t_twig_valid_test_84;
   t_twig_valid_test_93;
   t_twig_valid_test_102;
   t_twig_valid_test_111;
   t_twig_valid_test_127;
   t_twig_variable_definition_naming_106;
   t_twig_variable_definition_naming_122;
   t_twig_variable_definition_naming_138;
   t_twig_variable_definition_naming_154;
   t_twig_variable_definition_naming_163;
   t_twig_variable_definition_naming_179;
   t_twig_variable_definition_naming_188;
   t_twig_variable_definition_naming_197;
   t_twig_variable_definition_naming_219;
   t_twig_variable_definition_naming_229;
   t_twig_variable_definition_naming_239;
   t_twig_variable_definition_naming_248;
   t_twig_variable_definition_naming_264;
   t_twig_variable_definition_naming_270;
   t_twig_variable_definition_naming_276;
   t_whitespace_between_line_breaks_48;
   t_whitespace_between_line_breaks_70] = true.
Proof. vm_compute. reflexivity. Qed.
