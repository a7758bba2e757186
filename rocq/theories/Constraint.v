(** Model of JSONQuery/constraint.h: the table of observed transitions. *)
From Verif Require Import Base Util.
Open Scope Z_scope.

(** JSONQuery/constraint.h:7-9. *)
Definition MAX_KEY_TEXT : Z := 100.
Definition MAX_CONSTRAINT : Z := 1000.
Definition MAX_STATES : Z := 100.

(** The two token types the table is used with (constraint.h:88,101): a key with
    its name, or an array bracket. *)
Inductive ckey : Type := CKey (name : bytes) | CArr.

(** JSONQuery/constraint.h:12-17 [ConstraintInfo].  [ci_name] is [None] for an
    array entry, whose [token_name] is never written (constraint.h:133). *)
Record cinfo : Type := mkCinfo { ci_name : option bytes; ci_states : list Z }.

(** JSONQuery/constraint.h:19-22 [ConstraintTable]. *)
Definition ctable := list cinfo.

Section Junk.
  (** The C string found in the never-written [token_name] of an array entry. *)
  Variable junk : bytes.

  (** The string compared by [strcmp] at constraint.h:93 and 47. *)
  Definition entry_name (ci : cinfo) : bytes :=
    match ci_name ci with Some n => n | None => junk end.

  Definition is_array_entry (ci : cinfo) : bool :=
    match ci_name ci with Some _ => false | None => true end.

  (** The entry test of JSONQuery/constraint.h:88-113 (and 40-80). *)
  Definition entry_match (k : ckey) (ci : cinfo) : bool :=
    match k with
    | CKey n => beq n (entry_name ci)
    | CArr => is_array_entry ci
    end.

  (** JSONQuery/constraint.h:116-128: add a state to an entry unless present. *)
  Definition add_state (ci : cinfo) (state : Z) : res cinfo :=
    if existsb (Z.eqb state) (ci_states ci) then Ok ci
    else if MAX_STATES <=? zlen (ci_states ci) then UB OOBWrite
    else Ok (mkCinfo (ci_name ci) (ci_states ci ++ [state])).

  (** The search loop and update of JSONQuery/constraint.h:84-138
      [addConstraintInfo]; [n] is the number of entries passed so far. *)
  Fixpoint add_entry (ct : ctable) (n : Z) (k : ckey) (state : Z) : res ctable :=
    match ct with
    | [] =>
        if MAX_CONSTRAINT <=? n then UB OOBWrite
        else match k with
             | CKey name => nm <- strcopy MAX_KEY_TEXT name ;; Ok [mkCinfo (Some nm) [state]]
             | CArr => Ok [mkCinfo None [state]]
             end
    | ci :: ct' =>
        if entry_match k ci
        then ci' <- add_state ci state ;; Ok (ci' :: ct')
        else r <- add_entry ct' (n + 1) k state ;; Ok (ci :: r)
    end.

  Definition addConstraintInfo (ct : ctable) (state : Z) (k : ckey) : res ctable :=
    add_entry ct 0 k state.

  (** JSONQuery/constraint.h:36-81 [updateStateInfo]: [None] is [num_state = -1].
      (The test [type==3] of line 67 is the value of LB, lexing.h:9.) *)
  Fixpoint updateStateInfo (ct : ctable) (k : ckey) : option (list Z) :=
    match ct with
    | [] => None
    | ci :: ct' => if entry_match k ci then Some (ci_states ci) else updateStateInfo ct' k
    end.
End Junk.
