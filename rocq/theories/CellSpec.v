(** Vocabulary of C48.  Nothing here refers to the model of the code. *)
From Verif Require Import Base.
Open Scope Z_scope.

(** What is done to an Output. *)
Inductive out_op : Type := OAdd (t : bytes) | ORemove (n : Z).
Definition out_after (l : list bytes) (x : out_op) : list bytes :=
  match x with OAdd t => l ++ [t] | ORemove n => firstn (Z.to_nat (zlen l - n)) l end.
(** Texts have at most 998 bytes, none of them NUL; there are at most 800000; not more
    than there are get removed. *)
Definition out_fits (l : list bytes) (x : out_op) : Prop :=
  match x with OAdd t => no_nul t /\ zlen t <= 998 /\ zlen l < 800000 | ORemove n => 0 <= n <= zlen l end.
Fixpoint outs_fit (l : list bytes) (xs : list out_op) : Prop :=
  match xs with [] => True | x :: xs' => out_fits l x /\ outs_fit (out_after l x) xs' end.

(** What is done to a tuple list: a tuple has a state, a text or a pair of positions,
    and the number of the next tuple. *)
Inductive item : Type := IText (t : bytes) | ISpan (b e : Z).
Record entry : Type := mkEntry { e_state : Z; e_item : item; e_next : Z }.
Inductive tl_op : Type := TAdd (state : Z) (t : bytes) | TSpan (state b e : Z) | TLink (i next : Z).
Definition tl_after (l : list entry) (x : tl_op) : list entry :=
  match x with
  | TAdd s t => l ++ [mkEntry s (IText t) (-1)]
  | TSpan s b e => l ++ [mkEntry s (ISpan b e) (-1)]
  | TLink i n => match nth_error l (Z.to_nat i) with
                 | Some t => firstn (Z.to_nat i) l ++ mkEntry (e_state t) (e_item t) n :: skipn (S (Z.to_nat i)) l
                 | None => l
                 end
  end.
Definition tl_fits (l : list entry) (x : tl_op) : Prop :=
  match x with
  | TAdd _ t => no_nul t /\ zlen t <= 998 /\ zlen l < 5000000
  | TSpan _ b _ => 0 <= b /\ zlen l < 5000000
  | TLink i _ => 0 <= i < zlen l
  end.
Fixpoint tls_fit (l : list entry) (xs : list tl_op) : Prop :=
  match xs with [] => True | x :: xs' => tl_fits l x /\ tls_fit (tl_after l x) xs' end.

(** What is done to a stack of at most 100 elements (top first): a push on a full stack
    and a pop of an empty one do nothing. *)
Inductive st_op (A : Type) : Type := SPush (x : A) | SPop | SCombine (l : list A).
Arguments SPush {A}. Arguments SPop {A}. Arguments SCombine {A}.
Definition pushed {A} (l : list A) (x : A) : list A := if zlen l <? 100 then x :: l else l.
Definition st_after {A} (l : list A) (o : st_op A) : list A :=
  match o with SPush x => pushed l x | SPop => tl l | SCombine l2 => fold_left pushed (rev l2) l end.
