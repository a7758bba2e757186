(** Model of the packed transition table,
    DFABuilder/include/Lexer/dfa_compressed.hpp and
    DFABuilder/src/Lexer/dfa_compressed.cpp. *)
From Verif Require Import Base.
Open Scope Z_scope.

(** dfa_compressed.hpp:29-32,40-41.  [stopState] of the base class
    (dfa.hpp:49) is kept by the caller, see Mixer.v. *)
Record cdfa : Type := mkC {
  m_default : list Z;
  m_base    : list Z;
  m_next    : list Z;
  m_check   : list Z;
  c_top     : Z;
  c_bottom  : Z
}.

(** dfa_compressed.hpp:18-19: empty vectors. *)
Definition empty_cdfa : cdfa := mkC [] [] [] [] 0 0.

Definition INT_MIN : Z := -2147483648.
Definition INT_MAX : Z := 2147483647.

(** [std::vector::resize] used for growing. *)
Definition grow (l : list Z) (n : Z) : list Z := l ++ repeat 0 (Z.to_nat n - List.length l).

(** Checked store into a vector. *)
Definition zwrite {A} (l : list A) (z : Z) (a : A) : res (list A) :=
  if (z <? 0) || (zlen l <=? z) then UB OOBWrite else Ok (upd l (Z.to_nat z) a).

(** dfa_compressed.cpp:7-16 [nextState]; the fuel bounds the recursion over
    default links. *)
Fixpoint nextState (fuel : nat) (c : cdfa) (s ch : Z) : res Z :=
  match fuel with
  | O => UB Fuel
  | S f =>
      if (s =? 0) || (ch =? 0) then Ok 0 else
      b <- zread (m_base c) s ;;
      let k := b + ch in
      hit <- (if (0 <=? k) && (k <? c_bottom c)
              then x <- zread (m_check c) k ;; Ok (x =? s)
              else Ok false) ;;
      if hit : bool then zread (m_next c) k
      else
        df <- zread (m_default c) s ;;
        if 0 <? df then nextState f c df ch else Ok (- df)
  end.

(** The lookup as used by the rest of the code. *)
Definition lookup (c : cdfa) (s ch : Z) : res Z :=
  nextState (S (List.length (m_default c))) c s ch.

(** dfa_compressed.hpp:69-74 [checkSpace]. *)
Definition checkSpace (c : cdfa) (i : Z) : cdfa :=
  if zlen (m_next c) <=? i
  then mkC (m_default c) (m_base c) (grow (m_next c) (i + 1)) (grow (m_check c) (i + 1))
           (c_top c) (c_bottom c)
  else c.

(** dfa_compressed.hpp:56-67 [getValidSize]: number of entries that differ from
    the most frequent one, and the most frequent one (the smallest of them). *)
Fixpoint count_z (x : Z) (l : list Z) : Z :=
  match l with [] => 0 | y :: l' => (if x =? y then 1 else 0) + count_z x l' end.

Fixpoint most_frequent (n : nat) (a : Z) (vec : list Z) (most frq : Z) : Z * Z :=
  match n with
  | O => (most, frq)
  | S n' =>
      let q := count_z a vec in
      if most <? q then most_frequent n' (a + 1) vec q a
      else most_frequent n' (a + 1) vec most frq
  end.

Definition getValidSize (c : cdfa) (vec : list Z) : res (Z * Z) :=
  let n := S (List.length (m_default c)) in
  if forallb (fun q => (0 <=? q) && (q <? Z.of_nat n)) vec
  then let '(most, frq) := most_frequent n 0 vec 0 0 in Ok (zlen vec - most, frq)
  else UB OOBWrite.

(** The reference row: a constant (createNewArea) or the row of another state
    (createLinkArea). *)
Inductive refrow : Type := RConst (base : Z) | RState (base : Z).
Definition ref_at (c : cdfa) (r : refrow) (a : Z) : res Z :=
  match r with RConst b => Ok b | RState b => lookup c b a end.

(** Positions 1.. of [objvec] as pairs (a, objvec[a]). *)
Fixpoint indexed (a : Z) (l : list Z) : list (Z * Z) :=
  match l with [] => [] | x :: l' => (a, x) :: indexed (a + 1) l' end.
Definition cells (objvec : list Z) : list (Z * Z) := indexed 1 (tl objvec).

(** dfa_compressed.cpp:49-56 and 94-101: first and last position that differ. *)
Fixpoint diff_bounds (c : cdfa) (r : refrow) (cs : list (Z * Z)) (acc : option (Z * Z))
  : res (option (Z * Z)) :=
  match cs with
  | [] => Ok acc
  | (a, x) :: cs' =>
      y <- ref_at c r a ;;
      if y =? x then diff_bounds c r cs' acc
      else diff_bounds c r cs' (match acc with None => Some (a, a) | Some (f, _) => Some (f, a) end)
  end.

(** dfa_compressed.cpp:64-72 and 109-117: is every needed slot free? *)
Fixpoint slots_free (c : cdfa) (r : refrow) (offset : Z) (cs : list (Z * Z)) : res bool :=
  match cs with
  | [] => Ok true
  | (a, x) :: cs' =>
      y <- ref_at c r a ;;
      if y =? x then slots_free c r offset cs'
      else k <- zread (m_check c) (offset + a) ;;
           if k =? 0 then slots_free c r offset cs' else Ok false
  end.

(** dfa_compressed.cpp:74-78 and 119-123: write the entries. *)
Fixpoint write_cells (c : cdfa) (r : refrow) (offset s : Z) (cs : list (Z * Z)) : res cdfa :=
  match cs with
  | [] => Ok c
  | (a, x) :: cs' =>
      y <- ref_at c r a ;;
      if y =? x then write_cells c r offset s cs'
      else
        nx <- zwrite (m_next c) (offset + a) x ;;
        ck <- zwrite (m_check c) (offset + a) s ;;
        write_cells (mkC (m_default c) (m_base c) nx ck (c_top c) (c_bottom c)) r offset s cs'
  end.

(** dfa_compressed.cpp:82 and 127: advance [Top] over used slots. *)
Fixpoint advance_top (n : nat) (c : cdfa) (t : Z) : res Z :=
  match n with
  | O => Ok t
  | S n' =>
      if t <? c_bottom c
      then k <- zread (m_check c) t ;;
           if k =? 0 then Ok t else advance_top n' c (t + 1)
      else Ok t
  end.

(** The search loop of dfa_compressed.cpp:45-85 and 90-130: [n] positions left,
    starting with [i]. *)
Fixpoint place_row (n : nat) (c : cdfa) (r : refrow) (s i : Z) (objvec : list Z) : res cdfa :=
  match n with
  | O => Ok c
  | S n' =>
      db <- diff_bounds c r (cells objvec) None ;;
      match db with
      | None =>
          b <- zwrite (m_base c) s INT_MIN ;;
          Ok (mkC (m_default c) b (m_next c) (m_check c) (c_top c) (c_bottom c))
      | Some (first, last_valid) =>
          let offset := i - first in
          let c1 := checkSpace c (offset + last_valid + 1) in
          free <- slots_free c1 r offset (cells objvec) ;;
          if free : bool
          then
            c2 <- write_cells c1 r offset s (cells objvec) ;;
            b <- zwrite (m_base c2) s offset ;;
            let bot := Z.max (c_bottom c2) (offset + last_valid + 1) in
            let c3 := mkC (m_default c2) b (m_next c2) (m_check c2) (c_top c2) bot in
            t <- advance_top (Z.to_nat (bot - c_top c3)) c3 (c_top c3) ;;
            Ok (mkC (m_default c3) (m_base c3) (m_next c3) (m_check c3) t bot)
          else place_row n' c1 r s (i + 1) objvec
      end
  end.

Definition loop_count (c : cdfa) : nat := Z.to_nat (c_bottom c - c_top c + 1).

(** dfa_compressed.cpp:43-86 [createNewArea]. *)
Definition createNewArea (c : cdfa) (base s : Z) (objvec : list Z) : res cdfa :=
  df <- zwrite (m_default c) s (- base) ;;
  let c1 := mkC df (m_base c) (m_next c) (m_check c) (c_top c) (c_bottom c) in
  place_row (loop_count c1) c1 (RConst base) s (c_top c1) objvec.

(** dfa_compressed.cpp:88-131 [createLinkArea]. *)
Definition createLinkArea (c : cdfa) (base s : Z) (objvec : list Z) : res cdfa :=
  df <- zwrite (m_default c) s base ;;
  let c1 := mkC df (m_base c) (m_next c) (m_check c) (c_top c) (c_bottom c) in
  place_row (loop_count c1) c1 (RState base) s (c_top c1) objvec.

(** dfa_compressed.hpp:46-54 [compareState]. *)
Fixpoint compare_cells (c : cdfa) (s : Z) (cs : list (Z * Z)) (counter : Z) : res bool :=
  match cs with
  | [] => Ok true
  | (a, x) :: cs' =>
      y <- lookup c s a ;;
      let counter' := if x =? y then counter else counter - 1 in
      if counter' <=? 0 then Ok false else compare_cells c s cs' counter'
  end.
Definition compareState (c : cdfa) (s : Z) (vec : list Z) : res bool :=
  df <- zread (m_default c) s ;;
  if 0 <? df then Ok false else compare_cells c s (cells vec) 10.

(** dfa_compressed.cpp:35-38: the first state with a similar row; [n] states
    left, starting with [i]. *)
Fixpoint find_similar (n : nat) (c : cdfa) (i : Z) (objvec : list Z) : res (option Z) :=
  match n with
  | O => Ok None
  | S n' =>
      r <- compareState c i objvec ;;
      if r : bool then Ok (Some i) else find_similar n' c (i + 1) objvec
  end.

(** dfa_compressed.cpp:18-41 [addEdge]. *)
Definition addEdge (c : cdfa) (s : Z) (objvec : list Z) (max : Z) : res cdfa :=
  let c0 := if zlen (m_default c) <=? max
            then mkC (grow (m_default c) (max + 1)) (grow (m_base c) (max + 1))
                     (m_next c) (m_check c) (c_top c) (c_bottom c)
            else c in
  '(size, most_frq) <- getValidSize c0 objvec ;;
  if size <=? 10 then createNewArea c0 most_frq s objvec
  else
    sim <- find_similar (Z.to_nat (s - 1)) c0 1 objvec ;;
    match sim with
    | Some i => createLinkArea c0 i s objvec
    | None => createNewArea c0 most_frq s objvec
    end.

(** Adding the rows of the states 1, 2, ... in order, each with the number of
    states known at that time ([max]); this is how dfa_mixer.cpp:28-59 uses it. *)
Fixpoint add_rows (c : cdfa) (s : Z) (rows : list (list Z * Z)) : res cdfa :=
  match rows with
  | [] => Ok c
  | (row, max) :: rows' => c' <- addEdge c s row max ;; add_rows c' (s + 1) rows'
  end.
