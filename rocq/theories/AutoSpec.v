(** Vocabulary of the automaton properties.  Only [follow] and [unusable] refer
    to the model: they say how the automaton is used. *)
From Verif Require Import Base Spec QueryClass Dfa.
Open Scope Z_scope.

(** Slices and filters without their conditions: every element of the array. *)
Definition widen_step (s : step) : step :=
  match s with SSlice _ _ | SFilter _ => SAll | _ => s end.
Definition widen (q : query) : query := map widen_step q.

(** [n] is the number, counted from 1, of the last expression that matches the
    path [w]; 0 if there is none. *)
Definition last_matching (es : list query) (w : list label) (n : Z) : Prop :=
  (n = 0 /\ forall e, In e es -> lsel e w = false) \/
  (exists i e, n = 1 + Z.of_nat i /\ nth_error es i = Some e /\ lsel e w = true /\
     forall i' e', (i < i')%nat -> nth_error es i' = Some e' -> lsel e' w = false).

(** A filter applies to the elements at path [w]. *)
Definition filtered_at (q : query) (w : list label) : Prop :=
  exists j e, nth_error q j = Some (SFilter e) /\ lsel (widen (firstn (S j) q)) w = true.

(** A filter looks at the value at path [w]. *)
Definition looked_at (q : query) (w : list label) : Prop :=
  exists j e f u, nth_error q j = Some (SFilter e) /\ In f (fields_in e) /\
    w = u ++ map LKey f /\ lsel (widen (firstn (S j) q)) u = true.

(** How the automaton is asked about a step: by its key, or NULL for an array. *)
Definition asked (l : label) : option bytes := match l with LKey k => Some k | LIdx _ => None end.

Fixpoint follow (d : dfa) (s : Z) (w : list label) : res Z :=
  match w with
  | [] => Ok s
  | l :: w' => s' <- dfaNextStateByStr d s (asked l) ;; follow d s' w'
  end.

(** No input of the automaton with the name [k] leads out of state [s]. *)
Definition unusable (d : dfa) (s : Z) (k : bytes) : Prop :=
  forall c, 3 <= c -> zread (d_names d) c = Ok k -> dfaNextState d s c = Ok 0.

(** Rows as the callers add them: row [t] is added when [max > t] states are
    known and mentions only those. *)
Definition proper_rows (rows : list (list Z * Z)) : Prop :=
  forall t row max, nth_error rows t = Some (row, max) ->
    Z.of_nat t + 1 <= max /\ zlen row < 2147483648 /\ forall s, In s row -> 0 <= s <= max.
