(** Model of the query automaton, DFABuilder/include/dfa.h. *)
From Verif Require Import Base.
Open Scope Z_scope.

(** DFABuilder/include/dfa.h:15-26 [JSONQueryIndexPair], [JSONQueryDFA].  The
    flat table of [states_num * inputs_num] entries is kept as a list of rows;
    [names] of the inputs 0..2 are not strings of the query and are never read
    by the lookup. *)
Record dfa : Type := mkDfa {
  d_inputs : Z;                  (* inputs_num                   *)
  d_table  : list (list Z);      (* table, one row for each state *)
  d_stop   : list Z;             (* stop_state                   *)
  d_accept : list Z;             (* accept_type                  *)
  d_range  : list (Z * Z);       (* array_index                  *)
  d_names  : list bytes          (* names                        *)
}.

(** DFABuilder/include/dfa.h:30-32. *)
Definition DFA_OUTPUT_CANDIDATE : Z := 1.
Definition DFA_CONDITION : Z := 2.
Definition DFA_PREDICATE : Z := 3.

(** DFABuilder/include/dfa.h:69-71 [dfaNextState]. *)
Definition dfaNextState (d : dfa) (state input : Z) : res Z :=
  row <- zread (d_table d) state ;; zread row input.

(** DFABuilder/include/dfa.h:77-79 [getDFAAcceptType]. *)
Definition getDFAAcceptType (d : dfa) (state : Z) : res Z := zread (d_accept d) state.

(** DFABuilder/include/dfa.h:73-75 [getDFAStopState]. *)
Definition getDFAStopState (d : dfa) (state : Z) : res Z := zread (d_stop d) state.

(** DFABuilder/include/dfa.h:85-87 [getDFAArrayIndex]. *)
Definition getDFAArrayIndex (d : dfa) (state : Z) : res (Z * Z) := zread (d_range d) state.

(** DFABuilder/include/dfa.h:101-106: the first input from [cinput] on whose
    table entry is not 0 and whose name is [input]; 1 if there is none.  [n] is
    the number of inputs left. *)
Fixpoint find_input (n : nat) (d : dfa) (row : list Z) (cinput : Z) (input : bytes) : res Z :=
  match n with
  | O => Ok 1
  | S n' =>
      e <- zread row cinput ;;
      if e =? 0 then find_input n' d row (cinput + 1) input
      else
        nm <- zread (d_names d) cinput ;;
        if beq nm input then Ok cinput
        else find_input n' d row (cinput + 1) input
  end.

(** DFABuilder/include/dfa.h:97-110 [dfaNextStateByStr]; [None] is DFA_ARRAY
    (NULL). *)
Definition dfaNextStateByStr (d : dfa) (state : Z) (input : option bytes) : res Z :=
  match input with
  | None => dfaNextState d state 2
  | Some s =>
      row <- zread (d_table d) state ;;
      c <- find_input (Z.to_nat (d_inputs d - 3)) d row 3 s ;;
      zread row c
  end.
