(** Where the values of a document are written, and documents up to layout.
    Nothing here refers to the model of the code. *)
From Verif Require Import Base Spec.
Open Scope Z_scope.

(** * Positions *)

(** The values in [v] with the offset of their first byte, when the text of [v]
    starts at offset [o]; in the order in which they end. *)
Fixpoint spans (o : Z) (v : json) : list (Z * json) :=
  match v with
  | JBare _ | JStr _ => [(o, v)]
  | JObj w ms => spans_ms (o + 1 + zlen w) ms ++ [(o, v)]
  | JArr w es => spans_es (o + 1 + zlen w) es ++ [(o, v)]
  end
with spans_ms (o : Z) (ms : members) : list (Z * json) :=
  match ms with
  | MNil => []
  | MCons p k v ms' =>
      let ov := o + zlen (w_before p) + (zlen k + 2) + zlen (w_colon p) + 1 + zlen (w_value p) in
      spans ov v ++ spans_ms (ov + zlen (text v) + zlen (w_after p) + 1) ms'
  end
with spans_es (o : Z) (es : elements) : list (Z * json) :=
  match es with
  | ENil => []
  | ECons wb v wa es' =>
      spans (o + zlen wb) v ++ spans_es (o + zlen wb + zlen (text v) + zlen wa + 1) es'
  end.

Definition doc_spans (d : doc) : list (Z * json) := spans (zlen (d_pre d)) (d_val d).

(** The bytes [t] are written at offset [o] of the stream. *)
Definition written_at (stream : bytes) (o : Z) (t : bytes) : Prop :=
  0 <= o /\ firstn (List.length t) (skipn (Z.to_nat o) stream) = t.

Definition span_end (s : Z * json) : Z := fst s + zlen (text (snd s)).

(** [l] is what remains of [m] when some entries are left out. *)
Inductive subseq {A} : list A -> list A -> Prop :=
| sub_nil : subseq [] []
| sub_skip x l m : subseq l m -> subseq l (x :: m)
| sub_take x l m : subseq l m -> subseq (x :: l) (x :: m).

(** * Layout *)

(** The same document without any insignificant white space. *)
Fixpoint strip (v : json) : json :=
  match v with
  | JBare s => JBare s
  | JStr s => JStr s
  | JObj _ ms => JObj [] (strip_ms ms)
  | JArr _ es => JArr [] (strip_es es)
  end
with strip_ms (ms : members) : members :=
  match ms with
  | MNil => MNil
  | MCons _ k v ms' => MCons (mkPad [] [] [] []) k (strip v) (strip_ms ms')
  end
with strip_es (es : elements) : elements :=
  match es with
  | ENil => ENil
  | ECons _ v _ es' => ECons [] (strip v) [] (strip_es es')
  end.

Definition same_up_to_layout (v1 v2 : json) : Prop := strip v1 = strip v2.
