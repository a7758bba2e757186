(** The meaning of filter expressions on an object of the document.  Nothing here
    refers to the model of the code; numbers are a parameter. *)
From Verif Require Import Base Spec QueryClass Num.
Open Scope Z_scope.

(** * Fields *)

(** The values at the path [f] of member names below [v], in document order
    (more than one only if an object has two members with the same name). *)
Fixpoint values_at (f : list bytes) (v : json) {struct v} : list json :=
  match f with
  | [] => [v]
  | k :: f' => match v with JObj _ ms => values_ms k f' ms | _ => [] end
  end
with values_ms (k : bytes) (f : list bytes) (ms : members) {struct ms} : list json :=
  match ms with
  | MNil => []
  | MCons _ k' v ms' => (if beq k k' then values_at f v else []) ++ values_ms k f ms'
  end.

(** The value of a field; of repeated members the last one counts. *)
Definition field (f : list bytes) (v : json) : option json := last (map Some (values_at f v)) None.

(** * Values of expressions *)
Inductive fval (N : numops) : Type :=
| FAbsent                (* no such field        *)
| FComp                  (* an object or array   *)
| FNull
| FBool (b : bool)
| FNum (n : num N)
| FStr (s : bytes).      (* as spelled in the source, without the quotes *)
Arguments FAbsent {N}. Arguments FComp {N}. Arguments FNull {N}. Arguments FBool {N}.
Arguments FNum {N}. Arguments FStr {N}.

(** A number of the document starts with a digit.  (Negative numbers are not
    reported with their sign by the code, see C09.) *)
Definition digit_word (s : bytes) : bool :=
  match s with c :: _ => Nat.leb 48 (nat_of_ascii c) && Nat.leb (nat_of_ascii c) 57 | [] => false end.

Section Meaning.
  Variable N : numops.

  (** The value of a field; [None] for a word that is no JSON literal. *)
  Definition json_val (o : option json) : option (fval N) :=
    match o with
    | None => Some FAbsent
    | Some (JObj _ _) | Some (JArr _ _) => Some FComp
    | Some (JStr s) => Some (FStr s)
    | Some (JBare s) =>
        if beq s (B "true") then Some (FBool true)
        else if beq s (B "false") then Some (FBool false)
        else if beq s (B "null") then Some FNull
        else if digit_word s then Some (FNum (n_atof N s))
        else None
    end.

  Definition truth (x : fval N) : bool :=
    match x with
    | FAbsent | FNull => false
    | FBool b => b
    | FNum n => negb (n_eqb N n (n_zero N))
    | FStr _ | FComp => true
    end.

  (** Equality; no meaning is given to comparing objects and arrays, or an absent
      field with null. *)
  Definition equal (x y : fval N) : option bool :=
    match x, y with
    | FComp, _ | _, FComp => None
    | FAbsent, FNull | FNull, FAbsent => None
    | FBool a, FBool b => Some (Bool.eqb a b)
    | FNum a, FNum b => Some (n_eqb N a b)
    | FStr a, FStr b => Some (beq a b)
    | FNull, FNull | FAbsent, FAbsent => Some true
    | _, _ => Some false
    end.

  Definition obind {A C} (o : option A) (k : A -> option C) : option C :=
    match o with Some a => k a | None => None end.

  (** Order and arithmetic are for numbers only. *)
  Definition nums {A} (f : num N -> num N -> A) (x y : fval N) : option A :=
    match x, y with FNum a, FNum b => Some (f a b) | _, _ => None end.

  Definition remainder (a b : num N) : option (num N) :=
    match n_to_ll N a, n_to_ll N b with
    | Some x, Some y => if y =? 0 then None else Some (n_of_ll N (Z.rem x y))
    | _, _ => None
    end.

  Definition apply_op (op : binop) (x y : fval N) : option (fval N) :=
    let ofb := option_map (@FBool N) in
    let ofn := option_map (@FNum N) in
    match op with
    | BOr => Some (FBool (truth x || truth y))
    | BAnd => Some (FBool (truth x && truth y))
    | BEq => ofb (equal x y)
    | BNeq => ofb (option_map negb (equal x y))
    | BLt => ofb (nums (n_ltb N) x y)
    | BGt => ofb (nums (fun a b => n_ltb N b a) x y)
    | BLe => ofb (nums (n_leb N) x y)
    | BGe => ofb (nums (fun a b => n_leb N b a) x y)
    | BAdd => ofn (nums (n_add N) x y)
    | BSub => ofn (nums (n_sub N) x y)
    | BMul => ofn (nums (n_mul N) x y)
    | BDiv => ofn (nums (n_div N) x y)
    | BMod => obind (nums (fun a b => remainder a b) x y) ofn
    end.

  (** The value of an expression when the fields have the values [env]. *)
  Fixpoint meaning (env : list bytes -> option json) (e : expr) : option (fval N) :=
    match e with
    | EField f => json_val (env f)
    | ENum neg lit => Some (FNum (if neg : bool then n_neg N (n_atof N lit) else n_atof N lit))
    | EStr s => Some (FStr s)
    | ENot e1 => option_map (fun x => FBool (negb (truth x))) (meaning env e1)
    | EBin op e1 e2 =>
        obind (meaning env e1) (fun x => obind (meaning env e2) (fun y => apply_op op x y))
    end.

  (** A filter accepts an object when its expression has a true value on the
      fields of the object. *)
  Definition holds (e : expr) (v : json) : bool :=
    match meaning (fun f => field f v) e with Some x => truth x | None => false end.

  (** The expression makes sense on the object. *)
  Definition meaningful (e : expr) (v : json) : Prop := meaning (fun f => field f v) e <> None.
End Meaning.

(** Every filter of the query makes sense on every object it is applied to. *)
Definition filters_meaningful (N : numops) (q : query) (v : json) : Prop :=
  forall j e p u, nth_error q j = Some (SFilter e) -> In (p, u) (nodes [] v) ->
    lsel (firstn (S j) q) (labels p) = true -> is_object u = true -> meaningful N e u.
