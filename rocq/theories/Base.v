(** Bytes, outcomes and small list facts shared by the model and the
    specification.  Nothing in this file models code of /repo. *)
From Coq Require Export Ascii String.
From Coq Require Export List Arith ZArith NArith Bool Lia ZifyBool.
Export ListNotations.

Definition bytes := list ascii.

(** [B "text"] is the byte list of a Coq string literal. *)
Definition B (s : string) : bytes := list_ascii_of_string s.
Arguments B s%string.

Definition NUL : ascii := "000"%char.
Definition TAB : ascii := "009"%char.
Definition LF  : ascii := "010"%char.
Definition CR  : ascii := "013"%char.
Definition DQ  : ascii := """"%char.
Definition BSL : ascii := "\"%char.

(** Kinds of undefined behaviour that the model distinguishes; [Fuel] is the
    out-of-fuel error of loops that carry fuel (never reachable, see the
    termination theorems). *)
Inductive ub : Type :=
| OOBRead        (* read outside an array or buffer                      *)
| OOBWrite       (* write outside an array or buffer                     *)
| UninitRead     (* use of an indeterminate value                        *)
| UseAfterFree   (* access to released memory                            *)
| NullDeref      (* access through a null pointer                        *)
| TypePun        (* union member read that was not the one written       *)
| BadConv        (* double to int conversion out of range                *)
| DivZero        (* integer division by zero                             *)
| Fuel.

Inductive res (A : Type) : Type :=
| Ok (a : A)
| UB (u : ub).
Arguments Ok {A} a.
Arguments UB {A} u.

Definition bind {A B'} (x : res A) (f : A -> res B') : res B' :=
  match x with Ok a => f a | UB u => UB u end.
Notation "x <- e ;; k" := (bind e (fun x => k))
  (at level 61, e at next level, right associativity).
Notation "' p <- e ;; k" := (bind e (fun x => match x with p => k end))
  (at level 61, p pattern, e at next level, right associativity).

Definition is_ok {A} (x : res A) : bool :=
  match x with Ok _ => true | UB _ => false end.

Fixpoint mapM {A B'} (f : A -> res B') (l : list A) : res (list B') :=
  match l with
  | [] => Ok []
  | x :: l' => y <- f x ;; ys <- mapM f l' ;; Ok (y :: ys)
  end.

Fixpoint foldM {S A} (f : S -> A -> res S) (l : list A) (s : S) : res S :=
  match l with
  | [] => Ok s
  | x :: l' => s' <- f s x ;; foldM f l' s'
  end.

Lemma foldM_app {S A} (f : S -> A -> res S) l1 : forall l2 s,
  foldM f (l1 ++ l2) s = (s' <- foldM f l1 s ;; foldM f l2 s').
Proof.
  induction l1 as [|x l1 IH]; intros l2 s; simpl; [reflexivity|].
  destruct (f s x); simpl; [apply IH | reflexivity].
Qed.

Definition zlen {A} (l : list A) : Z := Z.of_nat (List.length l).

Lemma zlen_nil {A} : zlen (@nil A) = 0%Z.
Proof. reflexivity. Qed.
Lemma zlen_cons {A} (x : A) l : zlen (x :: l) = (zlen l + 1)%Z.
Proof. unfold zlen. simpl List.length. lia. Qed.
Lemma zlen_app {A} (l1 l2 : list A) : zlen (l1 ++ l2) = (zlen l1 + zlen l2)%Z.
Proof. unfold zlen. rewrite app_length. lia. Qed.
Lemma zlen_nonneg {A} (l : list A) : (0 <= zlen l)%Z.
Proof. unfold zlen. lia. Qed.

(** [znth l z]: checked array read, [None] when [z] is out of range. *)
Definition znth {A} (l : list A) (z : Z) : option A :=
  if (z <? 0)%Z then None else nth_error l (Z.to_nat z).

(** [zread l z]: the same as an outcome. *)
Definition zread {A} (l : list A) (z : Z) : res A :=
  match znth l z with Some a => Ok a | None => UB OOBRead end.

(** Functional update; out of range leaves the list unchanged. *)
Fixpoint upd {A} (l : list A) (n : nat) (a : A) : list A :=
  match l, n with
  | [], _ => []
  | _ :: l', O => a :: l'
  | x :: l', S n' => x :: upd l' n' a
  end.

Lemma upd_length {A} (l : list A) : forall n a, List.length (upd l n a) = List.length l.
Proof. induction l as [|x l IH]; intros [|n] a; simpl; auto. Qed.

Lemma nth_error_upd_same {A} (l : list A) : forall n a,
  n < List.length l -> nth_error (upd l n a) n = Some a.
Proof.
  induction l as [|x l IH]; intros [|n] a H; simpl in *; try lia; auto.
  apply IH. lia.
Qed.

Lemma nth_error_upd_other {A} (l : list A) : forall n m a,
  n <> m -> nth_error (upd l n a) m = nth_error l m.
Proof.
  induction l as [|x l IH]; intros [|n] [|m] a H; simpl; auto; try congruence.
Qed.

Definition bytes_eq_dec : forall a b : bytes, {a = b} + {a <> b} :=
  list_eq_dec ascii_dec.

Definition beq (a b : bytes) : bool := if bytes_eq_dec a b then true else false.

Lemma beq_true a b : beq a b = true <-> a = b.
Proof. unfold beq. destruct (bytes_eq_dec a b); split; congruence. Qed.
Lemma beq_false a b : beq a b = false <-> a <> b.
Proof. unfold beq. destruct (bytes_eq_dec a b); split; congruence. Qed.
Lemma beq_refl a : beq a a = true.
Proof. apply beq_true; reflexivity. Qed.

(** The C string stored in a buffer: everything before the first NUL. *)
Fixpoint c_string (l : bytes) : bytes :=
  match l with
  | [] => []
  | c :: l' => if Ascii.eqb c NUL then [] else c :: c_string l'
  end.

Definition no_nul (l : bytes) : Prop := ~ In NUL l.

Lemma c_string_id l : no_nul l -> c_string l = l.
Proof.
  unfold no_nul. induction l as [|c l IH]; intros H; simpl; [reflexivity|].
  destruct (Ascii.eqb_spec c NUL) as [->|Hc].
  - exfalso; apply H; left; reflexivity.
  - f_equal. apply IH. intros Hin; apply H; right; exact Hin.
Qed.

Lemma c_string_no_nul l : no_nul (c_string l).
Proof.
  unfold no_nul. induction l as [|c l IH]; simpl; [tauto|].
  destruct (Ascii.eqb_spec c NUL) as [->|Hc]; simpl; [tauto|].
  intros [H|H]; [congruence|tauto].
Qed.
