(** Model of the loading and partitioning functions:
    JSONQuery/path_processor.h:25-149 and JSONQuery/file_partition.c.

    A file is its content; it does not change between two calls, and fread
    returns as many bytes as were asked for and are there. *)
From Verif Require Import Base Util.
Open Scope Z_scope.

(** [char ch = fgetc(fp); ch==EOF] (path_processor.h:62-65, file_partition.c:45-48):
    with a signed char the byte 0xFF is taken for the end of the file. *)
Definition BFF : ascii := ascii_of_nat 255.

(** path_processor.h:70, file_partition.c:53: white space skipped backwards. *)
Definition back_blank (c : ascii) : bool :=
  Ascii.eqb c " "%char || Ascii.eqb c TAB || Ascii.eqb c LF || Ascii.eqb c CR.

(** path_processor.h:75: what may precede a cut. *)
Definition opens_token (c : ascii) : bool :=
  Ascii.eqb c ","%char || Ascii.eqb c "{"%char || Ascii.eqb c "["%char.

(** path_processor.h:68-74: the last byte of the buffer that is not white space.
    The argument is the buffer in reverse; the C loop runs below index 0 when
    there is none. *)
Fixpoint back_char (rbuf : bytes) : res ascii :=
  match rbuf with
  | [] => UB OOBRead
  | c :: r => if back_blank c then back_char r else Ok c
  end.

(** path_processor.h:25-39 [loadInputStream]; [None]: the file cannot be opened. *)
Definition loadInputStream (file : option bytes) : option bytes := file.

(** path_processor.h:60-83: extension of the piece up to the next cut.  [X] is
    MAX_EXTENSION, [add] the number of bytes added so far, [rbuf] the buffer in
    reverse, [rest] what fgetc will deliver. *)
Fixpoint extend (X add : Z) (rbuf rest : bytes) : res (bytes * Z) :=
  let write (ch : ascii) (k : res (bytes * Z)) :=
    if X <=? add then UB OOBWrite else k in
  match rest with
  | [] => Ok (rbuf, add)
  | ch :: rest' =>
      if Ascii.eqb ch BFF then Ok (rbuf, add)
      else if Ascii.eqb ch DQ then
        prev <- back_char rbuf ;;
        if opens_token prev then Ok (rbuf, add)
        else write ch (extend X (add + 1) (ch :: rbuf) rest')
      else write ch (extend X (add + 1) (ch :: rbuf) rest')
  end.

(** path_processor.h:42-89 [loadBoundedInputStream], with MEMORY_FOOTPRINT [M]
    and MAX_EXTENSION [X]: the piece and the new [*start_pos], or None for NULL.
    (The FILE that is not closed when NULL is returned is not modelled.) *)
Definition loadBounded (M X : Z) (file : bytes) (start : Z) : res (option (bytes * Z)) :=
  let size := Z.min (zlen file - start) M in
  if size <=? 0 then Ok None
  else
    let rest := skipn (Z.to_nat start) file in
    '(rbuf, add) <- extend X 0 (rev (firstn (Z.to_nat size) rest)) (skipn (Z.to_nat size) rest) ;;
    if X <=? add then UB OOBWrite
    else Ok (Some (rev rbuf, start + size + add)).

(** path_processor.h:18 and 23. *)
Definition MEMORY_FOOTPRINT : Z := 250000000.
Definition MAX_EXTENSION : Z := 2000.
Definition loadBoundedInputStream (file : bytes) (start : Z) : res (option (bytes * Z)) :=
  loadBounded MEMORY_FOOTPRINT MAX_EXTENSION file start.

(** path_processor.h:111-133: extension of one chunk.  The loop never looks at
    the end of the stream: [rest] is the remaining stream with its terminating
    NUL, and going on after the NUL is a read outside of the buffer. *)
Fixpoint cut_chunk (X add : Z) (rbuf rest : bytes) : res (bytes * Z) :=
  match rest with
  | [] => UB OOBRead
  | ch :: rest' =>
      if Ascii.eqb ch DQ then
        prev <- back_char rbuf ;;
        if X <=? add then UB OOBWrite
        else if opens_token prev then Ok (rbuf, add)
        else cut_chunk X (add + 1) (ch :: rbuf) rest'
      else if X <=? add then UB OOBWrite
      else cut_chunk X (add + 1) (ch :: rbuf) rest'
  end.

(** path_processor.h:106-137: the loop over the chunks but the last one; [n] is
    num_core-1-i.  Returns the chunks and [sum_size]. *)
Fixpoint part_loop (X chunk : Z) (s : bytes) (n : nat) (sum : Z) : res (list bytes * Z) :=
  match n with
  | O => Ok ([], sum)
  | S n' =>
      buf <- read_range s (ltrim s 0 + sum) chunk ;;
      let sum1 := sum + chunk in
      '(rbuf, add) <-
        (if sum1 <=? zlen s then cut_chunk X 0 (rev buf) (skipn (Z.to_nat sum1) (s ++ [NUL]))
         else Ok (rev buf, 0)) ;;
      let sum2 := sum1 + add in
      if zlen s <=? sum2 + chunk then Ok ([c_string (rev rbuf)], sum2)
      else
        '(l, r) <- part_loop X chunk s n' sum2 ;;
        Ok (c_string (rev rbuf) :: l, r)
  end.

(** path_processor.h:92-149 [partitionInputStream]: the chunks; None is an entry
    that is left NULL.  (num_core is an int; the model is for num_core >= 0.) *)
Definition partition (X : Z) (s : bytes) (num_core : nat) : res (list (option bytes)) :=
  let s := c_string s in
  if Nat.eqb num_core 0 then UB DivZero
  else
    let chunk := zlen s / Z.of_nat num_core + 1 in
    '(l, sum) <- part_loop X chunk s (pred num_core) 0 ;;
    if 0 <? zlen s - sum then
      t <- substring s 0 sum (zlen s) ;;
      Ok (map Some l ++ [Some t])
    else Ok (map Some l ++ [None]).
Definition partitionInputStream : bytes -> nat -> res (list (option bytes)) := partition MAX_EXTENSION.

(** file_partition.c:43-66: like [extend], but the byte at the cut has been taken
    from the file: the result also carries [ch] (None: EOF). *)
Fixpoint extend_file (X add : Z) (rbuf rest : bytes) : res (bytes * Z * option ascii * bytes) :=
  match rest with
  | [] => Ok (rbuf, add, None, [])
  | ch :: rest' =>
      if Ascii.eqb ch BFF then Ok (rbuf, add, None, rest')
      else if Ascii.eqb ch DQ then
        prev <- back_char rbuf ;;
        if opens_token prev then Ok (rbuf, add, Some ch, rest')
        else if X <=? add then UB OOBWrite
        else extend_file X (add + 1) (ch :: rbuf) rest'
      else if X <=? add then UB OOBWrite
      else extend_file X (add + 1) (ch :: rbuf) rest'
  end.

(** file_partition.c:30-70: the loop over the chunks but the last one.  [ch] is
    the byte taken from the file before (None: -1), [rest] the unread part.  A
    NUL byte in the file, which would cut strcat short, is excluded by returning
    undefined behaviour for it. *)
Fixpoint part_file_loop (X chunk fsize : Z) (n : nat) (ch : option ascii) (rest : bytes) (sum : Z)
  : res (list bytes * Z * option ascii * bytes) :=
  match n with
  | O => Ok ([], sum, ch, rest)
  | S n' =>
      let got := match ch with
                 | Some c => c :: firstn (Z.to_nat (chunk - 1)) rest
                 | None => firstn (Z.to_nat chunk) rest
                 end in
      let rest1 := match ch with
                   | Some _ => skipn (Z.to_nat (chunk - 1)) rest
                   | None => skipn (Z.to_nat chunk) rest
                   end in
      if zlen got <? chunk then UB UninitRead
      else if existsb (Ascii.eqb NUL) got then UB UninitRead
      else
        '(rbuf, add, ch', rest2) <- extend_file X 0 (rev got) rest1 ;;
        if X <=? add then UB OOBWrite
        else
          let sum' := sum + chunk + add in
          if fsize <=? sum' + chunk then Ok ([rev rbuf], sum', ch', rest2)
          else
            '(l, s, c, r) <- part_file_loop X chunk fsize n' ch' rest2 sum' ;;
            Ok (rev rbuf :: l, s, c, r)
  end.

(** file_partition.c:10-96 [partitionFile] with MAX_EXTENSION [X].  The buffer of
    the last chunk has [remain_size] bytes, and line 84 or 88 stores a NUL at
    index [remain_size]. *)
Definition partition_file (X : Z) (file : bytes) (num_core : nat) : res (list (option bytes)) :=
  if Nat.eqb num_core 0 then UB DivZero
  else
    let chunk := zlen file / Z.of_nat num_core + 1 in
    '(l, sum, ch, rest) <- part_file_loop X chunk (zlen file) (pred num_core) None file 0 ;;
    let remain := zlen file - sum in
    let cap := remain in
    if 0 <? remain then
      (if cap <=? remain then UB OOBWrite
       else Ok (map Some l ++ [Some (match ch with Some c => c :: rest | None => rest end)]))
    else Ok (map Some l ++ [None]).
Definition partitionFile : bytes -> nat -> res (list (option bytes)) := partition_file 1000.
