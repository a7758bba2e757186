(** The C type double and the library function atof, as a parameter of the model
    and of the specification: every theorem holds for every interpretation.
    (JSONPathParser/jsonpath_evaluator.h uses double for all numbers, line 21;
    [n_to_ll] is the conversion to long long of line 153, undefined outside of
    its range.) *)
From Verif Require Import Base.

Record numops : Type := mkNum {
  num : Type;
  n_zero : num;
  n_eqb : num -> num -> bool;
  n_ltb : num -> num -> bool;
  n_leb : num -> num -> bool;
  n_add : num -> num -> num;
  n_sub : num -> num -> num;
  n_mul : num -> num -> num;
  n_div : num -> num -> num;
  n_neg : num -> num;
  n_to_ll : num -> option Z;
  n_of_ll : Z -> num;
  n_atof : bytes -> num
}.
