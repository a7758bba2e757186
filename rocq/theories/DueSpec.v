(** Vocabulary for what a document that is cut off has already delivered.  Nothing
    here refers to the model of the code. *)
From Verif Require Import Base Spec PosSpec CutSpec.
Open Scope Z_scope.

(** The texts of the values selected by a query without filters that end within the
    first [n] bytes of the document, in the order in which they end. *)
Definition ended_answers (n : Z) (q : query) (dc : doc) : list bytes :=
  map (fun s => text (snd s))
    (filter (fun s => selects (fun _ _ => false) q (fst (fst s)) && (snd (fst s) + zlen (text (snd s)) <=? n)) (doc_located dc)).
