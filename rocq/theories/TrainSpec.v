(** Vocabulary for the training runs: in which state of the query automaton a key
    or an array of a document is met.  Only the functions by which the automaton is
    asked (Dfa.v), the names of the keys of the table (Constraint.v) and, for
    arbitrary texts, the step of the automaton (Stream.v) are used. *)
From Verif Require Import Base Spec QueryClass Lexer Dfa Constraint Stream AutoSpec.
Open Scope Z_scope.

(** The index at the end of a label; 0 for a key. *)
Definition index_of (l : label) : Z := match l with LKey _ => 0 | LIdx i => Z.of_nat i end.

(** Position [i] of an array lies in the index range of state [s]. *)
Definition within (d : dfa) (s i : Z) : Prop :=
  exists lo hi, getDFAArrayIndex d s = Ok (lo, hi) /\ ((lo = 0 /\ hi = 0) \/ lo <= i < hi).
Definition beyond (d : dfa) (s i : Z) : Prop :=
  exists lo hi, getDFAArrayIndex d s = Ok (lo, hi) /\ ~ (lo = 0 /\ hi = 0) /\ ~ lo <= i < hi.

(** Following the labels [w] from state [s] at position [i] leads to state [s']
    at position [i']; a position outside of the range of its state leads to the
    dead state 0. *)
Inductive leads (d : dfa) : Z -> Z -> list label -> Z -> Z -> Prop :=
| leads_nil s i : leads d s i [] s i
| leads_in s i l w t s' i' : within d s i -> dfaNextStateByStr d s (asked l) = Ok t ->
    leads d t (index_of l) w s' i' -> leads d s i (l :: w) s' i'
| leads_out s i l w s' i' : beyond d s i -> leads d 0 (index_of l) w s' i' -> leads d s i (l :: w) s' i'.

(** The keys of an object. *)
Fixpoint keys (ms : members) : list bytes := match ms with MNil => [] | MCons _ k _ ms' => k :: keys ms' end.
(** The value [u] shows [k]: it is an array, or an object with that key. *)
Definition shows (u : json) (k : ckey) : Prop :=
  match u, k with
  | JArr _ _, CArr => True
  | JObj _ ms, CKey n => In n (keys ms)
  | _, _ => False
  end.

(** Somewhere in the document [k] is met in state [s], at position [i]. *)
Definition met_at (d : dfa) (v : json) (k : ckey) (s i : Z) : Prop :=
  exists p u, In (p, u) (nodes [] v) /\ shows u k /\ leads d 1 0 (labels p) s i.
Definition met (d : dfa) (v : json) (k : ckey) (s : Z) : Prop := exists i, met_at d v k s i.

(** Every occurrence of an array or key in the document. *)
Definition shown (v : json) (k : ckey) : Prop := exists p u, In (p, u) (nodes [] v) /\ shows u k.

(** * The same for any text

    While the tokens of a text are read one after the other, the query automaton
    takes one step for each.  [reads d text k s i]: at some point the next token
    is [k], and the automaton is in state [s] at array position [i]. *)
Definition is_token (t : token) (k : ckey) : Prop :=
  match t, k with TKY n, CKey m => n = m | TLB, CArr => True | _, _ => False end.
Definition reads (d : dfa) (text : bytes) (k : ckey) (s i : Z) : Prop :=
  exists before t after c, lex_all text = Ok (before ++ t :: after) /\ is_token (e_tok t) k /\
    foldM (core_step d (c_string text)) before init_core = Ok c /\ q_state (c_cur c) = s /\ q_count (c_cur c) = i.
