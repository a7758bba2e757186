(** Model of JSONQuery/constraint.h as it is in memory: a fixed array of entries with
    old contents, each with a buffer for the name and an array of states.  The other
    model files use lists in their place (Constraint.v); CellTabProof.v relates the
    two. *)
From Verif Require Import Base Util Constraint Cells.
Open Scope Z_scope.

(** JSONQuery/lexing.h:9 and 12. *)
Definition LB : Z := 3.
Definition KY : Z := 6.
(** JSONQuery/constraint.h:12-17 [ConstraintInfo]. *)
Record ccell : Type := mkCc { cc_name : bytes; cc_type : Z; cc_set : list Z; cc_num : Z }.
(** JSONQuery/constraint.h:19-22 [ConstraintTable]. *)
Record ctab : Type := mkCt { ct_info : list ccell; ct_num : Z }.
(** JSONQuery/constraint.h:24-34 [initConstraintTable], [createConstraintTable];
    [junk] is what malloc leaves. *)
Definition initTable (junk : list ccell) : ctab := mkCt junk 0.

(** The test [strcmp(name, token_name)==0].  [a] is a C string without its NUL, [b]
    the whole buffer; going on behind the buffer is a read outside of it.  (C library;
    no counterpart in /repo.) *)
Fixpoint strcmp_is0 (a b : bytes) : res bool :=
  match b with
  | [] => UB OOBRead
  | c :: b' =>
      if Ascii.eqb c NUL then Ok (match a with [] => true | _ => false end)
      else match a with [] => Ok false | x :: a' => if Ascii.eqb x c then strcmp_is0 a' b' else Ok false end
  end.
(** A store into an array of integers.  (C array store; no counterpart in /repo.) *)
Definition put_int (l : list Z) (i x : Z) : res (list Z) :=
  if (i <? 0) || (zlen l <=? i) then UB OOBWrite else Ok (upd l (Z.to_nat i) x).

(** The loops of JSONQuery/constraint.h:45-59 and 65-79, 91-99 and 104-112: the
    index of the first entry for [k], or the number of entries; [n] is last-i. *)
Fixpoint find_entry (n : nat) (i : Z) (t : ctab) (k : ckey) : res Z :=
  match n with
  | O => Ok i
  | S n' =>
      c <- zread (ct_info t) i ;;
      m <- match k with CKey name => strcmp_is0 name (cc_name c) | CArr => Ok (cc_type c =? LB) end ;;
      if m : bool then Ok i else find_entry n' (i + 1) t k
  end.
(** JSONQuery/constraint.h:116-123: the index of the state, or their number. *)
Fixpoint find_state (n : nat) (i : Z) (set : list Z) (state : Z) : res Z :=
  match n with
  | O => Ok i
  | S n' => x <- zread set i ;; if x =? state then Ok i else find_state n' (i + 1) set state
  end.
(** JSONQuery/constraint.h:84-138 [addConstraintInfo]. *)
Definition addConstraintInfo_c (t : ctab) (state : Z) (k : ckey) : res ctab :=
  let last := ct_num t in
  index <- find_entry (Z.to_nat last) 0 t k ;;
  if negb (index =? last) then
    c <- zread (ct_info t) index ;;
    si <- find_state (Z.to_nat (cc_num c)) 0 (cc_set c) state ;;
    if si =? cc_num c then
      set <- put_int (cc_set c) si state ;;
      Ok (mkCt (upd (ct_info t) (Z.to_nat index) (mkCc (cc_name c) (cc_type c) set (cc_num c + 1))) last)
    else Ok t
  else
    match znth (ct_info t) index with
    | None => UB OOBWrite
    | Some c =>
        name <- match k with CKey name => strcopy_bytes name (cc_name c) | CArr => Ok (cc_name c) end ;;
        set <- put_int (cc_set c) 0 state ;;
        Ok (mkCt (upd (ct_info t) (Z.to_nat index)
              (mkCc name (match k with CKey _ => KY | CArr => LB end) set 1)) (last + 1))
    end.

(** JSONQuery/constraint.h:50-55 and 70-75: the states are copied; [n] is num_state-j. *)
Fixpoint copy_states (n : nat) (j : Z) (src dest : list Z) : res (list Z) :=
  match n with
  | O => Ok dest
  | S n' => x <- zread src j ;; d <- put_int dest j x ;; copy_states n' (j + 1) src d
  end.
(** JSONQuery/constraint.h:36-81 [updateStateInfo]: num_state and state_set of the
    caller's structure, whose state_set held [dest]. *)
Definition updateStateInfo_c (t : ctab) (k : ckey) (dest : list Z) : res (Z * list Z) :=
  let last := ct_num t in
  index <- find_entry (Z.to_nat last) 0 t k ;;
  if index =? last then Ok (-1, dest)
  else
    c <- zread (ct_info t) index ;;
    d <- copy_states (Z.to_nat (cc_num c)) 0 (cc_set c) dest ;;
    Ok (cc_num c, d).
