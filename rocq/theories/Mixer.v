(** Model of the product construction, DFABuilder/src/Lexer/dfa_mixer.cpp. *)
From Verif Require Import Base Regex Compress.
Open Scope Z_scope.

(** dfa_mixer.cpp:31-43: successor vector; [None] when every component is 0. *)
Fixpoint vec_next (ds : list sdfa) (v : list Z) (c : Z) : list Z :=
  match ds, v with
  | d :: ds', s :: v' => (if s =? 0 then 0 else s_next d s c) :: vec_next ds' v' c
  | _, _ => []
  end.

Definition vec_step (ds : list sdfa) (v : list Z) (c : Z) : option (list Z) :=
  let w := vec_next ds v c in
  if forallb (fun s => s =? 0) w then None else Some w.

Fixpoint zs_eqb (a b : list Z) : bool :=
  match a, b with
  | [], [] => true
  | x :: a', y :: b' => (x =? y) && zs_eqb a' b'
  | _, _ => false
  end.

(** dfa_mixer.cpp:115-126 [addStopState]: the last component that is in a stop
    state gives the number, counted from 1. *)
Fixpoint stop_of (ds : list sdfa) (v : list Z) (i : Z) : Z :=
  match ds, v with
  | d :: ds', s :: v' =>
      let later := stop_of ds' v' (i + 1) in
      if negb (later =? 0) then later
      else if negb (s =? 0) && negb (tread (s_stop d) s =? 0) then i else 0
  | _, _ => 0
  end.

(** The automaton that the later code sees: packed table, number of states
    (dfa_compressed.hpp:35), stop numbers (dfa.hpp:23-31), inputs. *)
Record main_dfa : Type := mkM {
  m_table  : cdfa;
  m_states : Z;
  m_stops  : list Z;
  m_inputs : Z
}.

(** dfa_mixer.cpp:63-113 [Combine] and 26-60 [CombineSpecial] with begin = 1 and
    top = 2: dfa_builder.cpp gives no prerequisites, so statelist[1] is the
    vector of ones and there is no third start vector.  statelist[0] is the
    vector of zeros, which is never looked up (find_states, lines 10-24, starts
    at index 1).  The rows are handed to the packed table when they are complete,
    with the size of [statelist] (one more than the list explored here). *)
Definition mixer_fuel (ds : list sdfa) : positive :=
  Z.to_pos (fold_right (fun d n => zlen (s_rows d) * n) 1 ds + 2).

Definition Combine (inputs : Z) (ds : list sdfa) : res main_dfa :=
  let start := map (fun _ => 1) ds in
  '(L, rows) <- explore zs_eqb (vec_step ds) (mixer_fuel ds) inputs start ;;
  c <- add_rows empty_cdfa 1 (map (fun r => (fst r, snd r + 1)) rows) ;;
  Ok (mkM c (zlen L + 1) (0 :: map (fun v => stop_of ds v 1) L) inputs).
