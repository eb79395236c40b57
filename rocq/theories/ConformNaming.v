(** Tests (not proofs): the assertions of naming_convention.rs:196-452, generated from them. *)
From Coq Require Import NArith String Bool List.
Import ListNotations.
From Verif Require Import Text Naming.
Local Open Scope string_scope.

Definition same (a b : option text) : bool :=
  match a, b with Some x, Some y => text_eqb x y | None, None => true | _, _ => false end.

Example naming_tests : forallb (fun b => b) [
  is_valid_ascii_alpha_snake_case (txt "my_block") false;
  is_valid_ascii_alpha_snake_case (txt "my_b_l_o_c_k") false;
  is_valid_ascii_alpha_snake_case (txt "page_account_register_advantages_entry1") false;
  is_valid_ascii_alpha_snake_case (txt "b2b_something") false;
  is_valid_ascii_alpha_snake_case (txt "something_v1_child") false;
  negb (is_valid_ascii_alpha_snake_case (txt "my-block") false);
  negb (is_valid_ascii_alpha_snake_case (txt "myBlock") false);
  negb (is_valid_ascii_alpha_snake_case (txt "MyBlock") false);
  negb (is_valid_ascii_alpha_snake_case (txt "my__block") false);
  negb (is_valid_ascii_alpha_snake_case (txt "_my_block") false);
  negb (is_valid_ascii_alpha_snake_case (txt "__my_block") false);
  negb (is_valid_ascii_alpha_snake_case (txt "my_block_") false);
  negb (is_valid_ascii_alpha_snake_case (txt "my_block__") false);
  negb (is_valid_ascii_alpha_snake_case (txt "__my_block__") false);
  negb (is_valid_ascii_alpha_snake_case (txt "innerA") false);
  negb (is_valid_ascii_alpha_snake_case (txt "pageAccountRegister") false);
  negb (is_valid_ascii_alpha_snake_case (txt "page-account-register") false);
  negb (is_valid_ascii_alpha_snake_case (txt "b2bSomething") false);
  negb (is_valid_ascii_alpha_snake_case (txt "something_v1-child") false);
  is_valid_ascii_alpha_snake_case (txt "MY_BLOCK") true;
  is_valid_ascii_alpha_snake_case (txt "MY_B_L_O_C_K") true;
  is_valid_ascii_alpha_snake_case (txt "PAGE_ACCOUNT_REGISTER_ADVANTAGES_ENTRY1") true;
  is_valid_ascii_alpha_snake_case (txt "B2B_SOMETHING") true;
  is_valid_ascii_alpha_snake_case (txt "SOMETHING_V1_CHILD") true;
  negb (is_valid_ascii_alpha_snake_case (txt "MY-BLOCK") true);
  negb (is_valid_ascii_alpha_snake_case (txt "myBlock") true);
  negb (is_valid_ascii_alpha_snake_case (txt "MyBlock") true);
  negb (is_valid_ascii_alpha_snake_case (txt "MY__BLOCK") true);
  negb (is_valid_ascii_alpha_snake_case (txt "_MY_BLOCK") true);
  negb (is_valid_ascii_alpha_snake_case (txt "__MY_BLOCK") true);
  negb (is_valid_ascii_alpha_snake_case (txt "MY_BLOCK_") true);
  negb (is_valid_ascii_alpha_snake_case (txt "MY_BLOCK__") true);
  negb (is_valid_ascii_alpha_snake_case (txt "__MY_BLOCK__") true);
  negb (is_valid_ascii_alpha_snake_case (txt "INNERa") true);
  negb (is_valid_ascii_alpha_snake_case (txt "pageAccountRegister") true);
  negb (is_valid_ascii_alpha_snake_case (txt "PAGE-ACCOUNT-REGISTER") true);
  negb (is_valid_ascii_alpha_snake_case (txt "b2bSomething") true);
  negb (is_valid_ascii_alpha_snake_case (txt "SOMETHING_V1-CHILD") true);
  is_valid_alphanumeric_kebab_case (txt "my-attribute");
  is_valid_alphanumeric_kebab_case (txt "h1");
  is_valid_alphanumeric_kebab_case (txt ":vue-bound");
  is_valid_alphanumeric_kebab_case (txt "@vue-event");
  is_valid_alphanumeric_kebab_case (txt "#vue-slot");
  is_valid_alphanumeric_kebab_case (txt "my-attribute2");
  negb (is_valid_alphanumeric_kebab_case (txt "my--attribute"));
  negb (is_valid_alphanumeric_kebab_case (txt "-my-attribute"));
  negb (is_valid_alphanumeric_kebab_case (txt "my-attribute-"));
  negb (is_valid_alphanumeric_kebab_case (txt "my-attribute--"));
  negb (is_valid_alphanumeric_kebab_case (txt "--my-attribute"));
  negb (is_valid_alphanumeric_kebab_case (txt "myAttribute"));
  negb (is_valid_alphanumeric_kebab_case (txt "my_attribute"));
  negb (is_valid_alphanumeric_kebab_case (txt "myA"));
  is_camel_case (txt "camelCase");
  is_camel_case (txt "camelCase2Long");
  is_camel_case (txt "_privateVar");
  is_camel_case (txt "_");
  negb (is_camel_case (txt "PascalCase"));
  negb (is_camel_case (txt "_PrivateVar"));
  negb (is_camel_case (txt "_snake_var"));
  negb (is_camel_case (txt "snake_case"));
  negb (is_camel_case (txt "kebab-case"));
  negb (is_camel_case (txt "UPPERCASE"));
  same (try_make_snake_case (txt "my-kebab-case-block") false) (Some (txt "my_kebab_case_block"));
  same (try_make_snake_case (txt "myCamelCaseBlock") false) (Some (txt "my_camel_case_block"));
  same (try_make_snake_case (txt "MyPascalCaseBlock") false) (Some (txt "my_pascal_case_block"));
  same (try_make_snake_case (txt "myStrange-Block") false) (Some (txt "my_strange_block"));
  same (try_make_snake_case (txt "innerA") false) (Some (txt "inner_a"));
  same (try_make_snake_case (txt "inner-") false) (Some (txt "inner"));
  same (try_make_snake_case (txt "inner_") false) (Some (txt "inner"));
  same (try_make_snake_case (txt "-inner") false) (Some (txt "inner"));
  same (try_make_snake_case (txt "_inner") false) (Some (txt "inner"));
  same (try_make_snake_case (txt "pageAccountRegister") false) (Some (txt "page_account_register"));
  same (try_make_snake_case (txt "page-account-register") false) (Some (txt "page_account_register"));
  same (try_make_snake_case (txt "b2bSomething") false) (Some (txt "b2b_something"));
  same (try_make_snake_case (txt "something_v1-child") false) (Some (txt "something_v1_child"));
  same (try_make_snake_case (txt "_My-Broken_-Block_") false) None;
  same (try_make_snake_case (txt "my-kebab-case-block") true) (Some (txt "MY_KEBAB_CASE_BLOCK"));
  same (try_make_snake_case (txt "myCamelCaseBlock") true) (Some (txt "MY_CAMEL_CASE_BLOCK"));
  same (try_make_snake_case (txt "MyPascalCaseBlock") true) (Some (txt "MY_PASCAL_CASE_BLOCK"));
  same (try_make_snake_case (txt "myStrange-Block") true) (Some (txt "MY_STRANGE_BLOCK"));
  same (try_make_snake_case (txt "innerA") true) (Some (txt "INNER_A"));
  same (try_make_snake_case (txt "inner-") true) (Some (txt "INNER"));
  same (try_make_snake_case (txt "inner_") true) (Some (txt "INNER"));
  same (try_make_snake_case (txt "-inner") true) (Some (txt "INNER"));
  same (try_make_snake_case (txt "_inner") true) (Some (txt "INNER"));
  same (try_make_snake_case (txt "pageAccountRegister") true) (Some (txt "PAGE_ACCOUNT_REGISTER"));
  same (try_make_snake_case (txt "page-account-register") true) (Some (txt "PAGE_ACCOUNT_REGISTER"));
  same (try_make_snake_case (txt "b2bSomething") true) (Some (txt "B2B_SOMETHING"));
  same (try_make_snake_case (txt "something_v1-child") true) (Some (txt "SOMETHING_V1_CHILD"));
  same (try_make_snake_case (txt "_My-Broken_-Block_") true) None;
  same (try_make_kebab_case (txt "my_snake_case_block")) (Some (txt "my-snake-case-block"));
  same (try_make_kebab_case (txt "myCamelCaseBlock")) (Some (txt "my-camel-case-block"));
  same (try_make_kebab_case (txt "MyPascalCaseBlock")) (Some (txt "my-pascal-case-block"));
  same (try_make_kebab_case (txt ":myVueCamelCaseBlock")) (Some (txt ":my-vue-camel-case-block"));
  same (try_make_kebab_case (txt "@myVueCamelCaseBlock")) (Some (txt "@my-vue-camel-case-block"));
  same (try_make_kebab_case (txt "#myVueCamelCaseBlock")) (Some (txt "#my-vue-camel-case-block"));
  same (try_make_kebab_case (txt "myStrange-Block")) (Some (txt "my-strange-block"));
  same (try_make_kebab_case (txt "myA")) (Some (txt "my-a"));
  same (try_make_kebab_case (txt "my-")) (Some (txt "my"));
  same (try_make_kebab_case (txt "my_")) (Some (txt "my"));
  same (try_make_kebab_case (txt "-my")) (Some (txt "my"));
  same (try_make_kebab_case (txt "_my")) (Some (txt "my"));
  same (try_make_kebab_case (txt "my_attribute2_is_valid3")) (Some (txt "my-attribute2-is-valid3"));
  same (try_make_kebab_case (txt "_My-Broken_-Block_")) None] = true.
Proof. vm_compute. reflexivity. Qed.
