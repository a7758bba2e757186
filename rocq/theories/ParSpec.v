(** Vocabulary for the statement about parallel runs.  Nothing here refers to the
    model of the code. *)
From Verif Require Import Base Spec QueryClass PosSpec CutSpec.
Open Scope Z_scope.

(** The last step is .name or ..name. *)
Definition ends_in_name (q : query) : bool :=
  match last_step q with Some (SChild _) | Some (SDesc _) => true | _ => false end.

(** No key and no string, number or literal is written with more than 998 bytes. *)
Fixpoint short_texts (v : json) : bool :=
  match v with
  | JBare _ | JStr _ => zlen (text v) <=? 998
  | JObj _ ms => short_ms ms
  | JArr _ es => short_es es
  end
with short_ms (ms : members) : bool :=
  match ms with
  | MNil => true
  | MCons _ k v ms' => (zlen k <=? 998) && short_texts v && short_ms ms'
  end
with short_es (es : elements) : bool :=
  match es with
  | ENil => true
  | ECons _ v _ es' => short_texts v && short_es es'
  end.

(** No cut falls into the text of a selected object or array. *)
Definition apart_from_cuts (q : query) (dc : doc) (ps : list bytes) : Prop :=
  forall k w o v, In k (cuts 0 ps) -> In (w, o, v) (doc_located dc) -> is_container v = true ->
    lsel q (labels w) = true -> ~ straddles k o v.

(** The query restricts the elements of the array at [w] by a slice, by a filter. *)
Definition sliced (q : query) (w : list label) : Prop := exists q1 lo hi q2, q = q1 ++ SSlice lo hi :: q2 /\ lsel q1 w = true.
Definition filtered (q : query) (w : list label) : Prop := exists q1 e q2, q = q1 ++ SFilter e :: q2 /\ lsel q1 w = true.

(** No cut falls into the text of an array whose elements are selected, or are
    restricted by a slice.  Where one falls into the text of an array whose elements
    are restricted by a filter, that array starts in the first piece. *)
Definition items_apart_from_cuts (q : query) (dc : doc) (ps : list bytes) : Prop :=
  forall k w o b es, In k (cuts 0 ps) -> In (w, o, JArr b es) (doc_located dc) -> straddles k o (JArr b es) ->
    lsel q (labels w ++ [LIdx 0]) = false /\ ~ sliced q (labels w) /\ (filtered q (labels w) -> o < zlen (hd [] ps)).
