(** Concrete documents, queries and numbers for the examples and refutations. *)
From Verif Require Import Base Util Spec QueryClass Num FilterSpec PosSpec Claims Builder Eval Run EndToEnd SliceSpec.
Open Scope Z_scope.

(** Numbers for examples: integers, with the value of the leading digits for
    atof. *)
Fixpoint digits (acc : Z) (s : bytes) : Z :=
  match s with
  | c :: s' => if isdigit c then digits (acc * 10 + (Z.of_nat (nat_of_ascii c) - 48)) s' else acc
  | [] => acc
  end.
Definition zops : numops :=
  mkNum Z 0 Z.eqb Z.ltb Z.leb Z.add Z.sub Z.mul Z.quot Z.opp (fun z => Some z) (fun z => z) (digits 0).

Definition j0 : junk := mkJunk 0 true.

(** Documents: members are written [key: value] with one blank after the colon. *)
Definition pad1 : mpad := mkPad [] [] (B " ") [].
Definition pad0 : mpad := mkPad [] [] [] [].
Fixpoint mems (p : mpad) (l : list (bytes * json)) : members :=
  match l with [] => MNil | (k, v) :: l' => MCons p k v (mems p l') end.
Definition obj (l : list (bytes * json)) : json := JObj [] (mems pad1 l).
Definition obj0 (l : list (bytes * json)) : json := JObj [] (mems pad0 l).
Fixpoint elems (l : list json) : elements :=
  match l with [] => ENil | v :: l' => ECons [] v [] (elems l') end.
Definition arr (l : list json) : json := JArr [] (elems l).
Definition num (s : string) : json := JBare (B s).
Definition str (s : string) : json := JStr (B s).
Definition docu (v : json) : doc := mkDoc [] v [].
Arguments num s%string.
Arguments str s%string.

(** A document with repeated names, nesting, several kinds of values. *)
Definition book (t : string) (price : string) : json :=
  obj [(B "title", str t); (B "price", num price); (B "tags", arr [str "a"; num "1"; obj [(B "title", str "inner")]])].
Definition store : doc :=
  docu (obj [(B "store", obj [(B "book", arr [book "x\""y" "8"; book "z" "20"; num "3"]); (B "title", num "null")]);
             (B "open", num "true")]).

(** Boolean checks that imply the conditions of the theorems. *)
Definition limits_check (v : json) : bool :=
  Nat.leb (depth v) 100 && (zlen (nodes [] v) <=? 800000)
  && forallb (fun n => zlen (text (snd n)) <=? 998) (nodes [] v).
Lemma limits_checked q v : limits_check v = true -> limits q v.
Proof.
  unfold limits_check. rewrite !andb_true_iff. intros [[H1 H2] H3]. constructor.
  - apply Nat.leb_le, H1.
  - apply Z.leb_le, H2.
  - intros p u Hin _. rewrite forallb_forall in H3. apply Z.leb_le. apply (H3 (p, u) Hin).
Qed.

Definition meaningful_check (N : numops) (q : query) (v : json) : bool :=
  forallb (fun j => match nth_error q j with
    | Some (SFilter e) =>
        forallb (fun n => negb (lsel (firstn (S j) q) (labels (fst n))) || negb (is_object (snd n))
                  || match meaning N (fun f => field f (snd n)) e with Some _ => true | None => false end) (nodes [] v)
    | _ => true end) (seq 0 (List.length q)).
Lemma meaningful_checked N q v : meaningful_check N q v = true -> filters_meaningful N q v.
Proof.
  unfold meaningful_check. intros H j e p u Hj Hin Hl Ho. rewrite forallb_forall in H.
  assert (Hlt : (j < List.length q)%nat) by (apply nth_error_Some; congruence).
  specialize (H j ltac:(apply in_seq; lia)). rewrite Hj in H. rewrite forallb_forall in H. specialize (H _ Hin).
  cbn [fst snd] in H. rewrite Hl, Ho in H. cbn in H. unfold meaningful. destruct (meaning _ _ _); [discriminate|discriminate H].
Qed.

Definition fit_check (strict : bool) (q : query) : bool :=
  match build strict q with Ok (_, x) => forallb (fun s => s <? 100) (x_preds x) | UB _ => true end.
Lemma fit_checked strict q : fit_check strict q = true -> predicates_fit strict q.
Proof.
  unfold fit_check, predicates_fit. intros H d x E. rewrite E in H. apply Forall_forall. intros s Hs.
  rewrite forallb_forall in H. apply Z.ltb_lt, H, Hs.
Qed.

Lemma good_checked dc : wf_doc dc && lex_safe (d_val dc) && no_leading_blank dc && (zlen (doc_text dc) <=? 250000000) = true -> good_doc dc.
Proof. rewrite !andb_true_iff. intros [[[H1 H2] H3] H4]. constructor; auto. apply Z.leb_le, H4. Qed.

Definition single_check (q : query) : bool := forallb (fun f => Nat.leb (List.length f) 1) (query_fields q).
Lemma single_checked q : single_check q = true -> single_names q.
Proof. unfold single_check, single_names. rewrite forallb_forall. intros H f Hf. apply Nat.leb_le, H, Hf. Qed.

Definition not_nested_check (q1 : query) (v : json) : bool :=
  forallb (fun n => Nat.leb (List.length (filter (fun m => reach (q1 ++ [SAll]) (labels (firstn m (fst n)))) (seq 0 (S (List.length (fst n)))))) 1)
    (nodes [] v).
Lemma one_at_most {A} (f : A -> bool) l a b : (List.length (filter f l) <= 1)%nat -> In a l -> In b l -> f a = true -> f b = true -> a = b.
Proof.
  intros H Ha Hb Fa Fb. assert (In a (filter f l)) by (apply filter_In; auto). assert (In b (filter f l)) by (apply filter_In; auto).
  destruct (filter f l) as [|c [|c' l']]; cbn in *; [contradiction|intuition congruence|lia].
Qed.
Lemma not_nested_checked q1 v : not_nested_check q1 v = true -> not_nested q1 v.
Proof.
  unfold not_nested_check, not_nested. rewrite forallb_forall. intros H p u n m Hin Hn Hm Rn Rm. specialize (H _ Hin). cbn [fst] in H.
  apply Nat.leb_le in H. eapply one_at_most; [exact H| | |exact Rn|exact Rm]; apply in_seq; lia.
Qed.

Definition strings (l : list bytes) : list string := map string_of_list_ascii l.

Lemma store_good : good_doc store.
Proof. apply good_checked. vm_compute. reflexivity. Qed.
Lemma store_limits q : limits q (d_val store).
Proof. apply limits_checked. vm_compute. reflexivity. Qed.

(** Closes the premises of an example. *)
Ltac premises :=
  cbv zeta;
  repeat match goal with
  | |- _ /\ _ => split
  | |- good_doc store => apply store_good
  | |- limits _ (d_val store) => apply store_limits
  | |- good_doc _ => apply good_checked; vm_compute; reflexivity
  | |- limits _ _ => apply limits_checked; vm_compute; reflexivity
  | |- single_names _ => apply single_checked; vm_compute; reflexivity
  | |- not_nested _ _ => apply not_nested_checked; vm_compute; reflexivity
  | |- predicates_fit _ _ => apply fit_checked; vm_compute; reflexivity
  | |- filters_meaningful _ _ _ => apply meaningful_checked; vm_compute; reflexivity
  | |- same_up_to_layout _ _ => vm_compute; reflexivity
  | |- (_ <= _)%nat => apply Nat.leb_le; vm_compute; reflexivity
  | |- _ <= _ => vm_compute; discriminate
  | |- _ = _ => vm_compute; reflexivity
  end.
