(** The queries on which the compiler is right.  The restrictions are stated on
    the query alone; what goes wrong outside of them is shown by the refutations
    in the property files.  Nothing here refers to the model of the code. *)
From Verif Require Import Base Spec.
Open Scope Z_scope.

(** Fields that a filter expression looks at. *)
Fixpoint fields_in (e : expr) : list (list bytes) :=
  match e with
  | EField p => [p]
  | ENum _ _ | EStr _ => []
  | ENot e1 => fields_in e1
  | EBin _ e1 e2 => fields_in e1 ++ fields_in e2
  end.

Definition step_fields (s : step) : list (list bytes) :=
  match s with SFilter e => fields_in e | _ => [] end.
Definition query_fields (q : query) : list (list bytes) := flat_map step_fields q.

(** Names mentioned by a query. *)
Definition step_names (s : step) : list bytes :=
  match s with
  | SChild k | SDesc k => [k]
  | SFilter e => List.concat (fields_in e)
  | _ => []
  end.
Definition query_names (q : query) : list bytes := flat_map step_names q.

(** Names as the query scanner accepts them contain no dot. *)
Definition dot_free (k : bytes) : bool := forallb (fun c => negb (Ascii.eqb c "."%char)) k.

(** No index step; slices and filters only before the first [..] step. *)
Fixpoint restricted_before_desc (seen : bool) (q : query) : bool :=
  match q with
  | [] => true
  | SIndex _ :: _ => false
  | SDesc _ :: q' | SDescAny :: q' => restricted_before_desc true q'
  | SSlice _ _ :: q' | SFilter _ :: q' => negb seen && restricted_before_desc seen q'
  | _ :: q' => restricted_before_desc seen q'
  end.

(** The slice [0:0] means "every element" to the code. *)
Definition slice_ok (s : step) : bool :=
  match s with SSlice (Some 0) (Some 0) => false | _ => true end.

Fixpoint last_step (q : query) : option step :=
  match q with [] => None | [s] => Some s | _ :: q' => last_step q' end.

(** Selection when the conditions are ignored: every filter counts as [*]. *)
Fixpoint lsel (q : query) (w : list label) {struct w} : bool :=
  match w with
  | [] => match q with [] => true | _ => false end
  | l :: w' =>
      match q with
      | [] => false
      | SChild k :: q' => match l with LKey k' => beq k k' | LIdx _ => false end && lsel q' w'
      | SChildAny :: q' => lsel q' w'
      | SDesc k :: q' => (match l with LKey k' => beq k k' | LIdx _ => false end && lsel q' w') || lsel q w'
      | SDescAny :: q' => lsel q' w' || lsel q w'
      | SAll :: q' | SFilter _ :: q' => match l with LKey _ => false | LIdx _ => true end && lsel q' w'
      | SSlice lo hi :: q' => match l with LKey _ => false | LIdx i => in_slice lo hi i end && lsel q' w'
      | SIndex n :: q' => match l with LKey _ => false | LIdx i => Z.of_nat i =? n end && lsel q' w'
      end
  end.

(** The steps after a filter do not select a field that the filter tests. *)
Fixpoint untested (q : query) : bool :=
  match q with
  | [] => true
  | SFilter e :: q' => forallb (fun f => negb (lsel q' (map LKey f))) (fields_in e) && untested q'
  | _ :: q' => untested q'
  end.
(** The last step is not a filter, and the query does not end at a tested field. *)
Definition ends_well (q : query) : bool :=
  match last_step q with None | Some (SFilter _) => false | Some _ => true end.
Definition end_ok (q : query) : bool := ends_well q && untested q.

(** At most one filter, or every filter is followed by a [.name] step. *)
Definition is_filter (s : step) : bool := match s with SFilter _ => true | _ => false end.
Fixpoint filters_followed (q : query) : bool :=
  match q with
  | SFilter _ :: q' => match q' with SChild _ :: _ => true | _ => false end && filters_followed q'
  | _ :: q' => filters_followed q'
  | [] => true
  end.
Definition filters_ok (q : query) : bool :=
  Nat.leb (List.length (filter is_filter q)) 1 || filters_followed q.

Definition fields_ok (q : query) : bool :=
  forallb (fun f => nonempty f && forallb dot_free f) (query_fields q).

(** At most 253 different-name steps and fields, or no wildcard and no descendant
    step (and not so many names that an [int] cannot count them). *)
Definition is_wild (s : step) : bool := match s with SChildAny | SDesc _ | SDescAny => true | _ => false end.
Definition names_fit (q : query) : bool :=
  (zlen (query_names q) <=? 253) || (negb (existsb is_wild q) && (zlen (query_names q) <=? 2147483000)).

Definition supported (q : query) : bool :=
  restricted_before_desc false q && forallb slice_ok q && end_ok q && filters_ok q
  && fields_ok q && names_fit q.

(** * Candidates *)
Definition labels (p : path) : list label := map fst p.

(** The field tested by some filter on an element of the array that the filter
    applies to. *)
Definition tested (q : query) (w : list label) : Prop :=
  exists j e f u, nth_error q j = Some (SFilter e) /\ In f (fields_in e) /\
    w = u ++ map LKey f /\ lsel (firstn (S j) q) u = true.

(** What fits into the fixed-size buffers of the code: the nesting, the number of
    values, the length of each candidate and of each tested field. *)
(** Nesting as the syntax stack of the code counts it: every open bracket and
    every key whose value is being read is one entry. *)
Fixpoint depth (v : json) : nat :=
  match v with
  | JBare _ | JStr _ => 0
  | JObj _ ms => S (depth_ms ms)
  | JArr _ es => S (depth_es es)
  end
with depth_ms (ms : members) : nat :=
  match ms with
  | MNil => 0
  | MCons _ _ v ms' => Nat.max (S (depth v)) (depth_ms ms')
  end
with depth_es (es : elements) : nat :=
  match es with
  | ENil => 0
  | ECons _ v _ es' => Nat.max (depth v) (depth_es es')
  end.

Record limits (q : query) (v : json) : Prop := {
  lim_depth : (depth v <= 100)%nat;
  lim_nodes : zlen (nodes [] v) <= 800000;
  lim_text  : forall p u, In (p, u) (nodes [] v) -> lsel q (labels p) = true \/ tested q (labels p) ->
                zlen (text u) <= 998
}.
