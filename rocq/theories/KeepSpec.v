(** Vocabulary of C47.  Nothing here refers to the model of the code. *)
From Verif Require Import Base Spec QueryClass.

(** What is left of a value when only the members with the names [K] are kept, at
    every level, and the layout is forgotten. *)
Definition tight : mpad := mkPad [] [] [] [].
Definition listed (K : list bytes) (k : bytes) : bool := existsb (beq k) K.
Fixpoint pared (K : list bytes) (v : json) : json :=
  match v with
  | JBare s => JBare s
  | JStr s => JStr s
  | JObj _ ms => JObj [] (pared_ms K ms)
  | JArr _ es => JArr [] (pared_es K es)
  end
with pared_ms (K : list bytes) (ms : members) : members :=
  match ms with
  | MNil => MNil
  | MCons _ k v ms' => if listed K k then MCons tight k (pared K v) (pared_ms K ms') else pared_ms K ms'
  end
with pared_es (K : list bytes) (es : elements) : elements :=
  match es with
  | ENil => ENil
  | ECons _ v _ es' => ECons [] (pared K v) [] (pared_es K es')
  end.

(** Steps that go down one level, into members only by name. *)
Definition by_name (s : step) : bool := match s with SChildAny | SDesc _ | SDescAny => false | _ => true end.

(** The two values differ only in layout and in members that the query does not name. *)
Definition same_for (q : query) (u v : json) : Prop := pared (query_names q) u = pared (query_names q) v.

(** Texts of such values; texts of strings and bare words are the same. *)
Definition text_same_for (q : query) (t t' : bytes) : Prop :=
  exists u v, wf u = true /\ wf v = true /\ t = text u /\ t' = text v /\ same_for q u v /\ (is_container u = false -> t = t').
