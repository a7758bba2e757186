(** Model of the pattern compiler: position automata and their determinisation,
    DFABuilder/src/Lexer/regex_model.cpp, regex_builder.cpp, set_converter.cpp,
    dfa_simple.cpp. *)
From Verif Require Import Base.
Open Scope Z_scope.

(** * Loops whose number of rounds is only bounded by a large number *)

(** [piter p f s]: at most [p] rounds of [f], stopping at the first [inr]. *)
Fixpoint piter {S R : Type} (p : positive) (f : S -> S + R) (s : S) : S + R :=
  match p with
  | xH => f s
  | xO p' =>
      match piter p' f s with inl s' => piter p' f s' | inr r => inr r end
  | xI p' =>
      match f s with
      | inl s' => match piter p' f s' with inl s'' => piter p' f s'' | inr r => inr r end
      | inr r => inr r
      end
  end.

(** * Numbering of the reachable states

    The loop shared by regex_builder.cpp:47-76 (over [listSet]) and
    dfa_mixer.cpp:28-59 (over [statelist] from index 1 on): states are explored
    in the order in which they were found; for every input 1 .. inputs-1 the
    successor is looked up in the list and appended when it is new.  State number
    = position in the list + 1; 0 is the missing successor.  Each finished row is
    stored with the number of states known at that moment. *)
Section Explore.
  Context {A : Type}.
  Variable eqb : A -> A -> bool.
  Variable step : A -> Z -> option A.

  Fixpoint find_index (x : A) (L : list A) (i : Z) : option Z :=
    match L with
    | [] => None
    | y :: L' => if eqb y x then Some i else find_index x L' (i + 1)
    end.

  (** One input: regex_builder.cpp:53-73, dfa_mixer.cpp:30-56. *)
  Definition row_step (cur : A) (st : list A * list Z) (a : Z) : list A * list Z :=
    let '(L, row) := st in
    match step cur a with
    | None => (L, row ++ [0])
    | Some x =>
        match find_index x L 0 with
        | Some i => (L, row ++ [i + 1])
        | None => (L ++ [x], row ++ [zlen L + 1])
        end
    end.

  (** Inputs 1 .. n. *)
  Fixpoint inputs_from (a : Z) (n : nat) : list Z :=
    match n with O => [] | S n' => a :: inputs_from (a + 1) n' end.

  Definition make_row (inputs : Z) (cur : A) (L : list A) : list A * list Z :=
    fold_left (row_step cur) (inputs_from 1 (Z.to_nat (inputs - 1))) (L, [0]).

  Definition explore_round (inputs : Z) (st : nat * list A * list (list Z * Z))
    : (nat * list A * list (list Z * Z)) + (list A * list (list Z * Z)) :=
    let '(p, L, rows) := st in
    match nth_error L p with
    | None => inr (L, rows)
    | Some cur =>
        let '(L', row) := make_row inputs cur L in
        inl (S p, L', rows ++ [(row, zlen L')])
    end.

  Definition explore (fuel : positive) (inputs : Z) (start : A)
    : res (list A * list (list Z * Z)) :=
    match piter fuel (explore_round inputs) (0%nat, [start], []) with
    | inr r => Ok r
    | inl _ => UB Fuel
    end.
End Explore.

(** * Patterns *)

(** regex_model.hpp: [RegexItem::opt]; only these three are used by
    dfa_builder.cpp:145-172. *)
Inductive ropt : Type := ONone | OStar | OPlus.
(** A RegexSet built from the caret, or a RegexChar. *)
Inductive rsym : Type := RSet | RChar (c : Z).
Record ritem : Type := mkItem { r_sym : rsym; r_opt : ropt }.

(** RegexSet::isEdge with the character set computed by set_converter.cpp:8-31
    (all codes below 256), RegexChar::isEdge. *)
Definition isEdge (it : ritem) (a : Z) : bool :=
  match r_sym it with
  | RSet => (0 <=? a) && (a <? 256)
  | RChar c => a =? c
  end.

(** regex_model.cpp:62-65 [RegexItem::BuildNullable]. *)
Definition nullable (it : ritem) : bool :=
  match r_opt it with OStar => true | _ => false end.
Definition repeated (it : ritem) : bool :=
  match r_opt it with ONone => false | _ => true end.

(** Positions: 0 is the auxiliary node [ch] of regex_builder.cpp:40-41, the item
    number i of the list (from 0) is i + 1. *)

(** regex_model.cpp:115-119: first positions of a list whose first item has
    position [i]; an item contributes itself (regex_model.cpp:92-95). *)
Fixpoint first_from (i : nat) (items : list ritem) : list nat :=
  match items with
  | [] => []
  | it :: items' => i :: (if nullable it then first_from (S i) items' else [])
  end.

(** regex_model.cpp:128-133 and 146-155: positions that may follow. *)
Definition followpos (items : list ritem) (p : nat) : list nat :=
  match p with
  | O => first_from 1 items
  | S i =>
      (match nth_error items i with
       | Some it => if repeated it then [p] else []
       | None => []
       end) ++ first_from (S p) (skipn p items)
  end.

(** regex_model.cpp:120-124 and 55-60: last positions are terminators. *)
Definition isTerminator (items : list ritem) (p : nat) : bool :=
  match p with
  | O => false
  | S i => match nth_error items i with
           | Some _ => forallb nullable (skipn p items)
           | None => false
           end
  end.

Definition edge_at (items : list ritem) (p : nat) (a : Z) : bool :=
  match p with
  | O => false
  | S i => match nth_error items i with Some it => isEdge it a | None => false end
  end.

Definition mem (x : nat) (l : list nat) : bool := existsb (Nat.eqb x) l.

(** regex_builder.cpp:80-90 [GetNextSet]; a set of positions is the increasing
    list of its members. *)
Definition next_set (items : list ritem) (S0 : list nat) (a : Z) : list nat :=
  filter (fun f => existsb (fun p => mem f (followpos items p)) S0 && edge_at items f a)
         (seq 1 (List.length items)).

Fixpoint nats_eqb (a b : list nat) : bool :=
  match a, b with
  | [], [] => true
  | x :: a', y :: b' => Nat.eqb x y && nats_eqb a' b'
  | _, _ => false
  end.

Definition set_step (items : list ritem) (S0 : list nat) (a : Z) : option (list nat) :=
  match next_set items S0 a with [] => None | s => Some s end.

(** dfa_simple.hpp/.cpp: table (row = state, row 0 is never written and stays 0)
    and the stop flags of dfa.hpp:49.  Reads of this table are always inside it
    (theorem [simple_rows] of RegexProof.v), so a total read is used. *)
Record sdfa : Type := mkS { s_rows : list (list Z); s_stop : list Z }.
Definition tread (l : list Z) (k : Z) : Z := nth (Z.to_nat k) l 0.
Definition s_next (d : sdfa) (s a : Z) : Z := tread (nth (Z.to_nat s) (s_rows d) []) a.

(** regex_builder.cpp:35-78 [CreateDFA].  The fuel exceeds the number of sets of
    positions. *)
Definition regex_fuel (items : list ritem) : positive :=
  Z.to_pos (2 ^ (zlen items + 1) + 2).

Definition CreateDFA (inputs : Z) (items : list ritem) : res sdfa :=
  '(L, rows) <- explore nats_eqb (set_step items) (regex_fuel items) inputs [0%nat] ;;
  Ok (mkS ([] :: map fst rows)
          (0 :: map (fun s => if existsb (isTerminator items) s then 1 else 0) L)).
