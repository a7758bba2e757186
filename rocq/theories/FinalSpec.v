(** What the code returns for a query whose last step is a filter.  Nothing here
    refers to the model of the code. *)
From Verif Require Import Base Spec QueryClass.
Open Scope Z_scope.

(** The elements that the filter applies to. *)
Definition filtered (q : query) (w : list label) : bool := lsel (q ++ [SAll]) w.

(** The fields of these elements that the expression mentions. *)
Definition label_eq_dec : forall a b : label, {a = b} + {a <> b}.
Proof. decide equality; [apply bytes_eq_dec|apply Nat.eq_dec]. Defined.
Definition mentioned (q : query) (e : expr) (w : list label) : bool :=
  existsb (fun f =>
    let n := (List.length w - List.length f)%nat in
    (if list_eq_dec label_eq_dec (skipn n w) (map LKey f) then true else false) && filtered q (firstn n w))
  (fields_in e).

(** Every element is returned, whether the expression holds for it or not; and so
    is every field that the expression mentions: a string, number or literal by its
    text, an object or array by an empty text that comes before what it contains. *)
Section Final.
  Variables elem field : list label -> bool.
  Fixpoint final_val (w : list label) (v : json) : list bytes :=
    let mark := if field w then [[]] else [] in
    let own := if elem w then [text v] else [] in
    match v with
    | JBare _ | JStr _ => if elem w || field w then [text v] else []
    | JObj _ ms => mark ++ final_ms w ms ++ own
    | JArr _ es => mark ++ final_es w 0 es ++ own
    end
  with final_ms (w : list label) (ms : members) : list bytes :=
    match ms with MNil => [] | MCons _ k v ms' => final_val (w ++ [LKey k]) v ++ final_ms w ms' end
  with final_es (w : list label) (i : nat) (es : elements) : list bytes :=
    match es with ENil => [] | ECons _ v _ es' => final_val (w ++ [LIdx i]) v ++ final_es w (S i) es' end.
End Final.
Definition final_text (q : query) (e : expr) (v : json) : list bytes :=
  final_val (filtered q) (mentioned q e) [] v.
