(** Model of JSONQuery/utility.c: the string helpers every other part uses.

    A buffer is a [bytes] value without its terminating NUL (the NUL is at
    offset [zlen buf]); pointers are [Z] offsets into it. *)
From Verif Require Import Base.
Open Scope Z_scope.

(** Reading [*(buf+p)]: the terminating NUL is readable, everything outside is
    undefined behaviour.  (C pointer dereference; no counterpart in /repo.) *)
Definition peek (buf : bytes) (p : Z) : res ascii :=
  if p <? 0 then UB OOBRead
  else match nth_error buf (Z.to_nat p) with
       | Some c => Ok c
       | None => if p =? zlen buf then Ok NUL else UB OOBRead
       end.

(** JSONQuery/utility.c:78-84 [ltrim], and 92-99 [left_null_count]: number of
    leading blanks of a C string. *)
Fixpoint lead_blanks (l : bytes) : nat :=
  match l with
  | c :: l' => if Ascii.eqb c " "%char then S (lead_blanks l') else O
  | [] => O
  end.

(** JSONQuery/utility.c:78-84 [ltrim], on a pointer into [buf]. *)
Definition ltrim (buf : bytes) (p : Z) : Z :=
  p + Z.of_nat (lead_blanks (skipn (Z.to_nat p) buf)).

(** The copy loop of JSONQuery/utility.c:34-37 and 52-55: the bytes
    [from .. from+n) of the buffer, the terminating NUL being readable. *)
Definition read_range (buf : bytes) (from n : Z) : res bytes :=
  if n <=? 0 then Ok []
  else if (from <? 0) || (zlen buf + 1 <? from + n) then UB OOBRead
  else Ok (firstn (Z.to_nat n) (skipn (Z.to_nat from) (buf ++ [NUL]))).

(** JSONQuery/utility.c:47-57 [substring_in_place] into a buffer of [cap]
    bytes; the result is the C string left in the destination. *)
Definition substring_in_place (cap : Z) (buf : bytes) (ptext b e : Z) : res bytes :=
  let temp := ltrim buf ptext in
  let n := Z.max 0 (e - b) in
  if cap <? n + 1 then UB OOBWrite
  else r <- read_range buf (temp + b) n ;; Ok (c_string r).

(** JSONQuery/utility.c:27-40 [substring]: allocates [end-begin+1] bytes, so a
    negative length makes the final store invalid. *)
Definition substring (buf : bytes) (ptext b e : Z) : res bytes :=
  let temp := ltrim buf ptext in
  if e <? b then UB OOBWrite
  else r <- read_range buf (temp + b) (e - b) ;; Ok (c_string r).

(** JSONQuery/utility.c:10-19 [strcopy] into a destination of [cap] bytes: the
    text, its NUL and one more NUL are written. *)
Definition strcopy (cap : Z) (src : bytes) : res bytes :=
  if cap <? zlen src + 2 then UB OOBWrite else Ok src.
