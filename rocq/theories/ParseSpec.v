(** Specification: how a JSONPath query is written down.  Nothing from the model
    of the code is used here. *)
From Verif Require Import Base Spec.
Open Scope Z_scope.

(** * Words *)
Definition between (a b : nat) (c : ascii) : bool := Nat.leb a (nat_of_ascii c) && Nat.leb (nat_of_ascii c) b.
Definition digit (c : ascii) : bool := between 48 57 c.
Definition name_start (c : ascii) : bool := between 65 90 c || between 97 122 c || Ascii.eqb c "_"%char.
Definition name_char (c : ascii) : bool := name_start c || digit c.
(** A member name that may be written without quotes. *)
Definition is_name (s : bytes) : bool := match s with c :: s' => name_start c && forallb name_char s' | [] => false end.
Definition digits (s : bytes) : bool := match s with [] => false | _ => forallb digit s end.
(** A number literal: digits, possibly a point and more digits. *)
Definition is_literal (s : bytes) : Prop :=
  digits s = true \/ exists a b, s = a ++ "."%char :: b /\ digits a = true /\ digits b = true.
(** The characters between the quotes [q] of a string: a backslash protects the
    next character, which is no line break. *)
Fixpoint quotable (q : ascii) (esc : bool) (s : bytes) : bool :=
  match s with
  | [] => negb esc
  | c :: s' =>
      negb (Ascii.eqb c NUL) &&
      if esc then negb (Ascii.eqb c LF) && quotable q false s'
      else if Ascii.eqb c BSL then quotable q true s'
      else negb (Ascii.eqb c q) && quotable q false s'
  end.
Definition SQ : ascii := "'"%char.

(** The value of a number written with digits only. *)
Definition decimal (s : bytes) : Z := fold_left (fun n c => 10 * n + Z.of_nat (nat_of_ascii c - 48)) s 0.
Definition integer (n : bool * bytes) : Z := if fst n then - decimal (snd n) else decimal (snd n).
Definition fits_int (n : bool * bytes) : Prop := digits (snd n) = true /\ decimal (snd n) <= 2147483647.

(** * Filter expressions as written, with their parentheses *)
Inductive cexpr : Type :=
| CField (path : list bytes)
| CNum (neg : bool) (lit : bytes)
| CStr (quote : ascii) (s : bytes)
| CNot (e : cexpr)
| CBin (op : binop) (e1 e2 : cexpr)
| CParen (e : cexpr).

(** What they mean: the parentheses are only there to group. *)
Fixpoint plain (c : cexpr) : expr :=
  match c with
  | CField p => EField p
  | CNum n l => ENum n l
  | CStr _ s => EStr s
  | CNot e => ENot (plain e)
  | CBin op e1 e2 => EBin op (plain e1) (plain e2)
  | CParen e => plain e
  end.

Definition op_text (op : binop) : bytes :=
  match op with
  | BOr => B "||" | BAnd => B "&&" | BEq => B "==" | BNeq => B "!=" | BLt => B "<" | BGt => B ">"
  | BLe => B "<=" | BGe => B ">=" | BAdd => B "+" | BSub => B "-" | BMul => B "*" | BDiv => B "/" | BMod => B "%"
  end.
Definition minus (neg : bool) : list bytes := if neg then [B "-"] else [].

(** The words of an expression, in order. *)
Fixpoint words (c : cexpr) : list bytes :=
  match c with
  | CField p => B "@" :: flat_map (fun k => [B "."; k]) p
  | CNum n l => minus n ++ [l]
  | CStr q s => [q :: s ++ [q]]
  | CNot e => B "!" :: words e
  | CBin op e1 e2 => words e1 ++ [op_text op] ++ words e2
  | CParen e => [B "("] ++ words e ++ [B ")"]
  end.

Fixpoint good_words (c : cexpr) : Prop :=
  match c with
  | CField p => Forall (fun k => is_name k = true) p
  | CNum _ l => is_literal l
  | CStr q s => (q = DQ \/ q = SQ) /\ quotable q false s = true
  | CNot e | CParen e => good_words e
  | CBin _ e1 e2 => good_words e1 /\ good_words e2
  end.

(** Conventional precedence: [!] binds strongest, then multiplication, division
    and remainder, then addition and subtraction, then comparisons, then [&&],
    then [||]; all of them group to the left. *)
Definition prec (op : binop) : nat :=
  match op with
  | BOr => 1 | BAnd => 2 | BEq | BNeq | BLt | BGt | BLe | BGe => 3 | BAdd | BSub => 4 | BMul | BDiv | BMod => 5
  end.
Definition level (c : cexpr) : nat := match c with CBin op _ _ => prec op | CNot _ => 6 | _ => 7 end.

(** The parentheses needed by this convention are there. *)
Fixpoint grouped (c : cexpr) : bool :=
  match c with
  | CField _ | CNum _ _ | CStr _ _ => true
  | CNot e => Nat.leb 6 (level e) && grouped e
  | CBin op e1 e2 => Nat.leb (prec op) (level e1) && Nat.ltb (prec op) (level e2) && grouped e1 && grouped e2
  | CParen e => grouped e
  end.

(** Two places where the code departs from the convention are written with
    parentheses although they need none: an [&&] after an [||], and every
    remainder, including its operands. *)
Definition head_is (op : binop) (c : cexpr) : bool :=
  match c, op with CBin BAnd _ _, BAnd => true | CBin BMod _ _, BMod => true | _, _ => false end.
Definition atomic (c : cexpr) : bool := Nat.leb 7 (level c).
Fixpoint careful (c : cexpr) : bool :=
  match c with
  | CField _ | CNum _ _ | CStr _ _ => true
  | CNot e => negb (head_is BMod e) && careful e
  | CBin BMod e1 e2 => atomic e1 && atomic e2 && careful e1 && careful e2
  | CBin op e1 e2 =>
      negb (head_is BMod e1) && negb (head_is BMod e2)
      && match op with BOr => negb (head_is BAnd e2) | _ => true end && careful e1 && careful e2
  | CParen e => careful e
  end.

(** * Queries as written *)
Inductive cstep : Type :=
| KChild (k : bytes) | KChildAny | KDesc (k : bytes) | KDescAny | KAll
| KSlice (lo hi : option (bool * bytes)) | KIndex (n : bool * bytes) | KFilter (c : cexpr).

Definition step_of (s : cstep) : step :=
  match s with
  | KChild k => SChild k | KChildAny => SChildAny | KDesc k => SDesc k | KDescAny => SDescAny | KAll => SAll
  | KSlice lo hi => SSlice (option_map integer lo) (option_map integer hi)
  | KIndex n => SIndex (integer n)
  | KFilter c => SFilter (plain c)
  end.

Definition num_words (n : bool * bytes) : list bytes := minus (fst n) ++ [snd n].
Definition opt_words (n : option (bool * bytes)) : list bytes := match n with Some n => num_words n | None => [] end.
Definition step_words (s : cstep) : list bytes :=
  match s with
  | KChild k => [B "."; k]
  | KChildAny => [B "."; B "*"]
  | KDesc k => [B ".."; k]
  | KDescAny => [B ".."; B "*"]
  | KAll => [B "["; B "*"; B "]"]
  | KSlice lo hi => [B "["] ++ opt_words lo ++ [B ":"] ++ opt_words hi ++ [B "]"]
  | KIndex n => [B "["] ++ num_words n ++ [B "]"]
  | KFilter c => [B "["; B "?"; B "("] ++ words c ++ [B ")"; B "]"]
  end.
Definition query_words (q : list cstep) : list bytes := B "$" :: flat_map step_words q.

Definition good_step (s : cstep) : Prop :=
  match s with
  | KChild k | KDesc k => is_name k = true
  | KChildAny | KDescAny | KAll => True
  | KSlice lo hi =>
      (lo <> None \/ hi <> None) /\ (forall n, lo = Some n -> fits_int n) /\ (forall n, hi = Some n -> fits_int n)
  | KIndex n => fits_int n
  | KFilter c => good_words c /\ grouped c = true
  end.
Definition careful_step (s : cstep) : bool := match s with KFilter c => careful c | _ => true end.

(** Blanks may stand between the words. *)
Definition query_blank (c : ascii) : bool :=
  Ascii.eqb c " "%char || Ascii.eqb c TAB || Ascii.eqb c "011"%char || Ascii.eqb c "012"%char.
Inductive written : list bytes -> bytes -> Prop :=
| W_end b : forallb query_blank b = true -> written [] b
| W_word b w ws s : forallb query_blank b = true -> written ws s -> written (w :: ws) (b ++ w ++ s).
