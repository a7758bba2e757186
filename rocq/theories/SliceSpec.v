(** What the code does with slices that follow a [..] step.  Nothing here refers
    to the model of the code. *)
From Verif Require Import Base Spec QueryClass.
Open Scope Z_scope.

(** The values that a query would select if each of its slices were [*]. *)
Definition unsliced (s : step) : step := match s with SSlice _ _ => SAll | _ => s end.
Definition reach (q : query) (w : list label) : bool := lsel (map unsliced q) w.

(** The last slice of the query for whose elements a value qualifies. *)
Definition slice_at (q : query) (w : list label) (j : nat) : option (option Z * option Z) :=
  match nth_error q j with
  | Some (SSlice lo hi) => if reach (firstn (S j) q) w then Some (lo, hi) else None
  | _ => None
  end.
Definition latest (q : query) (w : list label) : option (option Z * option Z) :=
  fold_left (fun acc j => match slice_at q w j with Some b => Some b | None => acc end) (seq 0 (List.length q)) None.

(** The bounds that the code checks at a value: those of the last slice, but none
    if the value qualifies for the whole query and the query does not end in a
    slice. *)
Definition ends_sliced (q : query) : bool := match last_step q with Some (SSlice _ _) => true | _ => false end.
Definition guard (q : query) (w : list label) : option (option Z * option Z) :=
  if reach q w && negb (ends_sliced q) then None else latest q w.
Definition last_index (w : list label) : nat := match last w (LIdx 0) with LIdx i => i | LKey _ => 0 end.
Definition passes (q : query) (w : list label) : bool :=
  match guard q w with Some (lo, hi) => in_slice lo hi (last_index w) | None => true end.

(** The values that the code returns: every value on the way from the root to the
    value, and the value itself, must be within the bounds checked there. *)
Definition coded (q : query) (w : list label) : bool :=
  reach q w && forallb (fun n => passes q (firstn n w)) (seq 0 (S (List.length w))).
Definition coded_text (q : query) (v : json) : list bytes :=
  map (fun n => text (snd n)) (filter (fun n => coded q (labels (fst n))) (nodes [] v)).

(** No element that a slice could apply to lies within another one: a value has at
    most one such ancestor (the value itself included). *)
Definition not_nested (q1 : query) (v : json) : Prop :=
  forall p u n m, In (p, u) (nodes [] v) -> (n <= List.length p)%nat -> (m <= List.length p)%nat ->
    reach (q1 ++ [SAll]) (labels (firstn n p)) = true -> reach (q1 ++ [SAll]) (labels (firstn m p)) = true -> n = m.
