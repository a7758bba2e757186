(** Vocabulary for cutting a stream into pieces.  Nothing here refers to the
    model of the code. *)
From Verif Require Import Base Spec PosSpec.
Open Scope Z_scope.

(** The last byte that is not white space. *)
Fixpoint last_solid (s : bytes) : option ascii :=
  match s with
  | [] => None
  | c :: s' => match last_solid s' with
               | Some x => Some x
               | None => if ws_char c then None else Some c
               end
  end.

Definition opens (c : ascii) : bool :=
  Ascii.eqb c ","%char || Ascii.eqb c "{"%char || Ascii.eqb c "["%char.

(** The documented cutting rule: the second piece starts at a double quote that
    follows a comma, an opening brace or an opening bracket. *)
Definition cut_at (a r : bytes) : bool :=
  match r with c :: _ => Ascii.eqb c DQ | [] => false end
  && match last_solid a with Some c => opens c | None => false end.

(** Consecutive pieces are separated by such cuts. *)
Fixpoint well_cut (before : bytes) (ps : list bytes) : bool :=
  match ps with
  | [] => true
  | p :: ps' => cut_at before p && well_cut (before ++ p) ps'
  end.

(** A text that does not end like the text before a cut. *)
Definition tame_text (s : bytes) : bool :=
  match last_solid s with Some c => negb (opens c) | None => true end.

(** No key and no string of the document ends in a comma, an opening brace or an
    opening bracket (white space at the end not counted). *)
Fixpoint tame (v : json) : bool :=
  match v with
  | JBare _ => true
  | JStr s => tame_text s
  | JObj _ ms => tame_ms ms
  | JArr _ es => tame_es es
  end
with tame_ms (ms : members) : bool :=
  match ms with
  | MNil => true
  | MCons _ k v ms' => tame_text k && tame v && tame_ms ms'
  end
with tame_es (es : elements) : bool :=
  match es with
  | ENil => true
  | ECons _ v _ es' => tame v && tame_es es'
  end.

(** The values of a document with their paths and the offset of their first byte. *)
Fixpoint located (p : path) (o : Z) (v : json) : list (path * Z * json) :=
  match v with
  | JBare _ | JStr _ => [(p, o, v)]
  | JObj w ms => located_ms p (o + 1 + zlen w) ms ++ [(p, o, v)]
  | JArr w es => located_es p 0 (o + 1 + zlen w) es ++ [(p, o, v)]
  end
with located_ms (p : path) (o : Z) (ms : members) : list (path * Z * json) :=
  match ms with
  | MNil => []
  | MCons pd k v ms' =>
      let ov := o + zlen (w_before pd) + (zlen k + 2) + zlen (w_colon pd) + 1 + zlen (w_value pd) in
      located (p ++ [(LKey k, v)]) ov v ++ located_ms p (ov + zlen (text v) + zlen (w_after pd) + 1) ms'
  end
with located_es (p : path) (i : nat) (o : Z) (es : elements) : list (path * Z * json) :=
  match es with
  | ENil => []
  | ECons wb v wa es' =>
      located (p ++ [(LIdx i, v)]) (o + zlen wb) v
      ++ located_es p (S i) (o + zlen wb + zlen (text v) + zlen wa + 1) es'
  end.
Definition doc_located (d : doc) : list (path * Z * json) := located [] (zlen (d_pre d)) (d_val d).

(** The cut at offset [n] falls inside the text of the value at offset [o]. *)
Definition straddles (n o : Z) (v : json) : Prop := o < n < o + zlen (text v).

(** Offsets of the cuts between the pieces. *)
Fixpoint cuts (n : Z) (ps : list bytes) : list Z :=
  match ps with
  | [] => []
  | p :: ps' => n :: cuts (n + zlen p) ps'
  end.

(** From offset [lo] on, the next cut (or the end) is less than [X] bytes away. *)
Definition cuts_from (lo X : Z) (s : bytes) : Prop := forall a b, s = a ++ b -> lo <= zlen a ->
  exists m r, b = m ++ r /\ zlen m < X /\ (r = [] \/ cut_at (a ++ m) r = true).
(** Up to offset [hi], there is a next cut, and it is less than [X] bytes away. *)
Definition cuts_upto (hi X : Z) (s : bytes) : Prop := forall a b, s = a ++ b -> zlen a <= hi ->
  exists m r, b = m ++ r /\ zlen m < X /\ cut_at (a ++ m) r = true.
(** The first byte is not white space. *)
Definition solid_start (s : bytes) : bool := match s with c :: _ => negb (ws_char c) | [] => false end.
(** The text does not contain the byte 0xFF (which does not occur in UTF-8). *)
Definition no_ff (s : bytes) : Prop := ~ In (ascii_of_nat 255) s.
