(** The arrays of Cells.v behave like lists. *)
From Verif Require Import Base Util Dfa Stream Filter Worker Merge CellSpec Cells.
Open Scope Z_scope.

(** * strcopy *)
Lemma upd_split {A} : forall (l : list A) n a, (n < List.length l)%nat -> upd l n a = firstn n l ++ a :: skipn (S n) l.
Proof. induction l as [|x l IH]; intros [|n] a H; cbn in *; try lia; [reflexivity|]. rewrite IH by lia. reflexivity. Qed.
Lemma skipn_cons {A} : forall (l : list A) n a, nth_error l n = Some a -> skipn n l = a :: skipn (S n) l.
Proof. induction l as [|x l IH]; intros [|n] a H; try discriminate; [injection H as ->; reflexivity|]. cbn in H. change (skipn (S n) (x :: l)) with (skipn n l). rewrite (IH n a H). reflexivity. Qed.
Lemma skipn_add {A} : forall b (l : list A) a, skipn a (skipn b l) = skipn (b + a) l.
Proof. induction b as [|b IH]; intros l a; [reflexivity|]. destruct l as [|x l]; [rewrite !skipn_nil; reflexivity|]. exact (IH l a). Qed.
Lemma c_string_cut src r : no_nul src -> c_string (src ++ NUL :: r) = src.
Proof.
  intros Hn. induction src as [|c src IH]; [reflexivity|]. cbn [app c_string]. destruct (Ascii.eqb_spec c NUL) as [->|Hc]; [exfalso; apply Hn; left; reflexivity|].
  f_equal. apply IH. intros Hi. apply Hn. right. exact Hi.
Qed.
Lemma peek_in src i : (i <= List.length src)%nat -> exists c, peek src (Z.of_nat i) = Ok c /\ nth_error (src ++ [NUL]) i = Some c.
Proof.
  intros H. unfold peek. replace (Z.of_nat i <? 0) with false by lia. rewrite Nat2Z.id. destruct (nth_error src i) as [c|] eqn:E.
  - exists c. split; [reflexivity|]. rewrite nth_error_app1; [exact E|]. apply nth_error_Some. congruence.
  - apply nth_error_None in E. assert (i = List.length src) by lia. subst i. exists NUL. unfold zlen. rewrite Z.eqb_refl. split; [reflexivity|].
    rewrite nth_error_app2 by lia. rewrite Nat.sub_diag. reflexivity.
Qed.
Lemma put_in d i c : (i < List.length d)%nat -> put d (Z.of_nat i) c = Ok (firstn i d ++ c :: skipn (S i) d).
Proof. intros H. unfold put. replace ((Z.of_nat i <? 0) || (zlen d <=? Z.of_nat i)) with false by (unfold zlen; lia). rewrite Nat2Z.id, upd_split by exact H. reflexivity. Qed.
Lemma put_out d i c : (List.length d <= i)%nat -> put d (Z.of_nat i) c = UB OOBWrite.
Proof. intros H. unfold put. replace ((Z.of_nat i <? 0) || (zlen d <=? Z.of_nat i)) with true by (unfold zlen; lia). reflexivity. Qed.
Lemma copy_in src : forall n i d, (i + n = S (List.length src))%nat -> (i + n <= List.length d)%nat ->
  copy_loop n (Z.of_nat i) src d = Ok (firstn i d ++ skipn i (src ++ [NUL]) ++ skipn (i + n) d).
Proof.
  induction n as [|n IH]; intros i d H1 H2.
  - cbn [copy_loop]. rewrite (skipn_all2 (src ++ [NUL])) by (rewrite app_length; cbn; lia). rewrite Nat.add_0_r. cbn [app]. rewrite firstn_skipn. reflexivity.
  - cbn [copy_loop]. destruct (peek_in src i ltac:(lia)) as (c & -> & Hc). cbn [bind]. rewrite put_in by lia. cbn [bind].
    replace (Z.of_nat i + 1) with (Z.of_nat (S i)) by lia. rewrite IH by (try rewrite !app_length, firstn_length; cbn [List.length]; rewrite ?skipn_length; lia).
    f_equal. rewrite (skipn_cons _ _ _ Hc).
    rewrite firstn_app, firstn_firstn, firstn_length. replace (Nat.min (S i) i) with i by lia. replace (S i - Nat.min i (List.length d))%nat with 1%nat by lia.
    cbn [firstn app]. rewrite <- app_assoc. cbn [app]. do 2 f_equal.
    rewrite (skipn_app (S i + n) (firstn i d)), firstn_length. rewrite (skipn_all2 (firstn i d)) by (rewrite firstn_length; lia). cbn [app].
    replace (S i + n - Nat.min i (List.length d))%nat with (S n) by lia. change (skipn (S n) (c :: skipn (S i) d)) with (skipn n (skipn (S i) d)).
    rewrite skipn_add. replace (i + S n)%nat with (S i + n)%nat by lia. reflexivity.
Qed.
Lemma copy_out src : forall n i d, (i + n = S (List.length src))%nat -> (i <= List.length d < i + n)%nat -> copy_loop n (Z.of_nat i) src d = UB OOBWrite.
Proof.
  induction n as [|n IH]; intros i d H1 H2; [lia|]. cbn [copy_loop]. destruct (peek_in src i ltac:(lia)) as (c & -> & Hc). cbn [bind].
  destruct (Nat.eq_dec i (List.length d)) as [E|E]; [rewrite put_out by lia; reflexivity|]. rewrite put_in by lia. cbn [bind].
  replace (Z.of_nat i + 1) with (Z.of_nat (S i)) by lia. apply IH; [lia|]. rewrite app_length, firstn_length. cbn [List.length]. rewrite skipn_length. lia.
Qed.
(** The destination holds the text afterwards, or the copy leaves the destination. *)
Theorem strcopy_spec src dest : no_nul src ->
  if zlen dest <? zlen src + 2 then strcopy_bytes src dest = UB OOBWrite
  else exists d, strcopy_bytes src dest = Ok d /\ zlen d = zlen dest /\ c_string d = src.
Proof.
  intros Hn. unfold strcopy_bytes. rewrite (c_string_id src Hn). unfold zlen. replace (Z.to_nat (Z.of_nat (List.length src) + 1)) with (S (List.length src)) by lia. change (copy_loop (S (List.length src)) 0 src dest) with (copy_loop (S (List.length src)) (Z.of_nat 0) src dest).
  destruct (Z.ltb_spec (Z.of_nat (List.length dest)) (Z.of_nat (List.length src) + 2)) as [H|H].
  - destruct (Nat.eq_dec (List.length dest) (S (List.length src))) as [E|E].
    + rewrite (copy_in src (S (List.length src)) 0 dest) by lia. cbn [bind Nat.add firstn app]. change (skipn 0 (src ++ [NUL])) with (src ++ [NUL]).
      replace (Z.of_nat (List.length src) + 1) with (Z.of_nat (S (List.length src))) by lia. apply put_out. rewrite !app_length, skipn_length. cbn [List.length]. lia.
    + rewrite (copy_out src (S (List.length src)) 0 dest) by lia. reflexivity.
  - rewrite (copy_in src (S (List.length src)) 0 dest) by lia. cbn [bind firstn app Nat.add]. change (skipn 0 (src ++ [NUL])) with (src ++ [NUL]).
    replace (Z.of_nat (List.length src) + 1) with (Z.of_nat (S (List.length src))) by lia. rewrite put_in by (rewrite !app_length, skipn_length; cbn [List.length]; lia).
    eexists. split; [reflexivity|]. split.
    + rewrite app_length, firstn_length. cbn [List.length]. rewrite skipn_length, !app_length. rewrite skipn_length. cbn [List.length]. lia.
    + rewrite firstn_app. replace (S (List.length src)) with (List.length (src ++ [NUL])) at 1 by (rewrite app_length; cbn; lia). rewrite firstn_all, <- !app_assoc. cbn [app].
      apply c_string_cut, Hn.
Qed.

(** * The Output *)
Record out_rep (o : output) (l : list bytes) : Prop := {
  or_cells : zlen (o_element o) = 800000;
  or_size  : Forall (fun c => zlen c = 1000) (o_element o);
  or_count : o_count o = zlen l - 1;
  or_fit   : zlen l <= 800000;
  or_text  : forall i t, nth_error l i = Some t -> c_string (nth i (o_element o) []) = t
}.
Lemma nth_upd_same {A} (l : list A) n a x : (n < List.length l)%nat -> nth n (upd l n a) x = a.
Proof. intros H. apply nth_error_nth. apply nth_error_upd_same. exact H. Qed.
Lemma nth_upd_other {A} (l : list A) n m a x : n <> m -> nth m (upd l n a) x = nth m l x.
Proof.
  revert n m. induction l as [|y l IH]; intros [|n] [|m] H; cbn; try reflexivity; try congruence. apply IH. congruence.
Qed.
Lemma Forall_upd {A} (P : A -> Prop) : forall l n a, Forall P l -> P a -> Forall P (upd l n a).
Proof. induction l as [|x l IH]; intros [|n] a H Ha; cbn; auto; apply Forall_cons_iff in H as [H1 H2]; constructor; auto. Qed.
Lemma Forall_nth_in {A} (P : A -> Prop) l n x : Forall P l -> (n < List.length l)%nat -> P (nth n l x).
Proof. intros H Hn. rewrite Forall_forall in H. apply H, nth_In, Hn. Qed.
Lemma snoc_nth {A} (l : list A) a i t : nth_error (l ++ [a]) i = Some t -> (i < List.length l)%nat /\ nth_error l i = Some t \/ i = List.length l /\ t = a.
Proof.
  intros H. assert (Hi : (i < List.length (l ++ [a]))%nat) by (apply nth_error_Some; congruence). rewrite app_length in Hi. cbn in Hi.
  destruct (Nat.eq_dec i (List.length l)) as [->|E].
  - right. rewrite nth_error_app2, Nat.sub_diag in H by lia. injection H as <-. auto.
  - left. rewrite nth_error_app1 in H by lia. split; [lia|exact H].
Qed.
Lemma zlen_upd {A} (l : list A) n a : zlen (upd l n a) = zlen l.
Proof. unfold zlen. rewrite upd_length. reflexivity. Qed.
Lemma zlen_nat {A} (l : list A) : Z.to_nat (zlen l) = List.length l.
Proof. unfold zlen. apply Nat2Z.id. Qed.

Lemma init_rep junk : zlen junk = 800000 -> Forall (fun c => zlen c = 1000) junk -> out_rep (initOutput junk) [].
Proof. intros H1 H2. split; cbn [initOutput o_element o_count]; auto; try (rewrite zlen_nil; lia). intros [|i] t; discriminate. Qed.
(** One call is the call of the list. *)
Lemma add_rep o l t : out_rep o l -> no_nul t ->
  match addOutputElement l t with
  | Ok l' => exists o', addOutputElement_c o t = Ok o' /\ out_rep o' l'
  | UB r => addOutputElement_c o t = UB r
  end.
Proof.
  intros [H1 H2 H3 H4 H5] Hn. unfold addOutputElement, addOutputElement_c, strcopy, MAX_OUTPUT, MAX_STRING. rewrite H3, H1. replace (zlen l - 1 + 1) with (zlen l) by lia.
  replace (zlen l <? 0) with false by (unfold zlen; lia). cbn [orb]. destruct (Z.leb_spec 800000 (zlen l)) as [Hl|Hl]; [reflexivity|].
  assert (Hi : (Z.to_nat (zlen l) < List.length (o_element o))%nat) by (unfold zlen in *; lia).
  pose proof (strcopy_spec t (nth (Z.to_nat (zlen l)) (o_element o) []) Hn) as Hs. pose proof (Forall_nth_in _ _ _ [] H2 Hi) as Hc. cbn beta in Hc. unfold bytes in *. rewrite Hc in Hs.
  destruct (1000 <? zlen t + 2); cbn [bind]; [rewrite Hs; reflexivity|]. destruct Hs as (d & -> & D1 & D2). cbn [bind]. eexists. split; [reflexivity|].
  split; cbn [o_element o_count].
  - rewrite zlen_upd. exact H1.
  - apply Forall_upd; [exact H2|]. exact D1.
  - rewrite zlen_app, zlen_cons, zlen_nil. unfold zlen, bytes in *. lia.
  - rewrite zlen_app, zlen_cons, zlen_nil. unfold zlen, bytes in *. lia.
  - intros i u Hu. apply snoc_nth in Hu. destruct Hu as [[G1 G2]|[-> ->]].
    + rewrite nth_upd_other by (unfold zlen, bytes in *; lia). apply H5, G2.
    + rewrite zlen_nat in *. rewrite nth_upd_same by exact Hi. exact D2.
Qed.
Lemma remove_rep o l n : out_rep o l -> 0 <= n <= zlen l -> out_rep (removeOutputElement o n) (firstn (Z.to_nat (zlen l - n)) l).
Proof.
  intros [H1 H2 H3 H4 H5] Hn. assert (E : zlen (firstn (Z.to_nat (zlen l - n)) l) = zlen l - n) by (unfold zlen in *; rewrite firstn_length; lia).
  split; cbn [removeOutputElement o_element o_count]; auto; try (rewrite E; lia).
  intros i t Ht. apply H5. rewrite <- (firstn_skipn (Z.to_nat (zlen l - n)) l), nth_error_app1; [exact Ht|]. apply nth_error_Some. congruence.
Qed.
Lemma get_rep o l i t : out_rep o l -> nth_error l i = Some t -> exists b, getOutputElement o (Z.of_nat i) = Ok b /\ c_string b = t.
Proof.
  intros [H1 H2 H3 H4 H5] Ht. assert (Hi : (i < List.length l)%nat) by (apply nth_error_Some; congruence). unfold getOutputElement.
  replace ((Z.of_nat i <? 0) || (zlen (o_element o) <=? Z.of_nat i)) with false by (rewrite H1; unfold zlen in *; lia). rewrite Nat2Z.id. eauto.
Qed.

Definition out_call (o : output) (x : out_op) : res output :=
  match x with OAdd t => addOutputElement_c o t | ORemove n => Ok (removeOutputElement o n) end.
Lemma calls_rep : forall xs o l, out_rep o l -> outs_fit l xs -> exists o', foldM out_call xs o = Ok o' /\ out_rep o' (fold_left out_after xs l).
Proof.
  induction xs as [|x xs IH]; intros o l H Hf; [exists o; split; [reflexivity|exact H]|]. destruct Hf as [Hx Hf].
  assert (G : exists o', out_call o x = Ok o' /\ out_rep o' (out_after l x)).
  { destruct x as [t|n]; cbn [out_call out_after out_fits] in *.
    - destruct Hx as (X1 & X2 & X3). pose proof (add_rep o l t H X1) as A. unfold addOutputElement, strcopy, MAX_OUTPUT, MAX_STRING in A.
      replace (800000 <=? zlen l) with false in A by lia. replace (1000 <? zlen t + 2) with false in A by lia. exact A.
    - eexists. split; [reflexivity|]. apply remove_rep; assumption. }
  destruct G as (o1 & E & R). destruct (IH o1 _ R Hf) as (o' & E' & R'). exists o'. split; [|exact R']. cbn [foldM]. rewrite E. exact E'.
Qed.

(** * The tuple list *)
Definition entry_of (c : tcell) : entry :=
  mkEntry (tc_state c) (if tc_start c =? -1 then IText (c_string (tc_text c)) else ISpan (tc_start c) (tc_end c)) (tc_next c).
Record tl_rep (tl : tlist) (l : list entry) : Prop := {
  tr_cells : zlen (tl_element tl) = 5000000;
  tr_size  : Forall (fun c => zlen (tc_text c) = 1000) (tl_element tl);
  tr_count : tl_count tl = zlen l - 1;
  tr_fit   : zlen l <= 5000000;
  tr_entry : forall i t, nth_error l i = Some t -> entry_of (nth i (tl_element tl) no_cell) = t
}.
Lemma tl_init_rep junk : zlen junk = 5000000 -> Forall (fun c => zlen (tc_text c) = 1000) junk -> tl_rep (initTupleList junk) [].
Proof. intros H1 H2. split; cbn [initTupleList tl_element tl_count]; auto; try (rewrite zlen_nil; lia). intros [|i] t; discriminate. Qed.
Lemma tl_push tl l c e : tl_rep tl l -> zlen l < 5000000 -> zlen (tc_text c) = 1000 -> entry_of c = e ->
  tl_rep (mkTl (upd (tl_element tl) (Z.to_nat (zlen l)) c) (zlen l)) (l ++ [e]).
Proof.
  intros [H1 H2 H3 H4 H5] Hl Hc He. assert (Hi : (Z.to_nat (zlen l) < List.length (tl_element tl))%nat) by (unfold zlen in *; lia).
  split; cbn [tl_element tl_count].
  - rewrite zlen_upd. exact H1.
  - apply Forall_upd; assumption.
  - rewrite zlen_app, zlen_cons, zlen_nil. unfold zlen, bytes in *. lia.
  - rewrite zlen_app, zlen_cons, zlen_nil. unfold zlen, bytes in *. lia.
  - intros i u Hu. apply snoc_nth in Hu. destruct Hu as [[G1 G2]|[-> ->]].
    + rewrite nth_upd_other by (unfold zlen, bytes in *; lia). apply H5, G2.
    + rewrite zlen_nat in *. rewrite nth_upd_same by exact Hi. exact He.
Qed.
Lemma tl_add_rep tl l s t : tl_rep tl l -> no_nul t -> if (5000000 <=? zlen l) || (1000 <? zlen t + 2) then addTuple_c tl s t = UB OOBWrite
  else exists tl', addTuple_c tl s t = Ok tl' /\ tl_rep tl' (l ++ [mkEntry s (IText t) (-1)]).
Proof.
  intros R Hn. pose proof R as [H1 H2 H3 H4 H5]. unfold addTuple_c, outside. rewrite H3, H1. replace (zlen l - 1 + 1) with (zlen l) by lia.
  replace (zlen l <? 0) with false by (unfold zlen; lia). cbn [orb]. destruct (Z.leb_spec 5000000 (zlen l)) as [Hl|Hl]; cbn [orb]; [reflexivity|].
  assert (Hi : (Z.to_nat (zlen l) < List.length (tl_element tl))%nat) by (unfold zlen in *; lia).
  pose proof (strcopy_spec t (tc_text (cell_at tl (zlen l))) Hn) as Hs. unfold cell_at in *. pose proof (Forall_nth_in _ _ _ no_cell H2 Hi) as Hc. cbn beta in Hc. rewrite Hc in Hs.
  destruct (1000 <? zlen t + 2); [rewrite Hs; reflexivity|]. destruct Hs as (d & -> & D1 & D2). cbn [bind]. eexists. split; [reflexivity|].
  apply tl_push; [exact R|exact Hl|exact D1|]. unfold entry_of. cbn [tc_start tc_text tc_state tc_next Z.eqb Pos.eqb]. rewrite D2. reflexivity.
Qed.
Lemma tl_span_rep tl l s b e : tl_rep tl l -> b <> -1 -> if 5000000 <=? zlen l then addVirtualTuple_c tl s b e = UB OOBWrite
  else exists tl', addVirtualTuple_c tl s b e = Ok tl' /\ tl_rep tl' (l ++ [mkEntry s (ISpan b e) (-1)]).
Proof.
  intros R Hb. pose proof R as [H1 H2 H3 H4 H5]. unfold addVirtualTuple_c, outside. rewrite H3, H1. replace (zlen l - 1 + 1) with (zlen l) by lia.
  replace (zlen l <? 0) with false by (unfold zlen; lia). cbn [orb]. destruct (Z.leb_spec 5000000 (zlen l)) as [Hl|Hl]; [reflexivity|].
  assert (Hi : (Z.to_nat (zlen l) < List.length (tl_element tl))%nat) by (unfold zlen in *; lia).
  eexists. split; [reflexivity|]. apply tl_push; [exact R|exact Hl|apply (Forall_nth_in _ _ _ no_cell H2 Hi)|].
  unfold entry_of. cbn [tc_start tc_end tc_state tc_next]. replace (b =? -1) with false by lia. reflexivity.
Qed.
Lemma tl_link_rep tl l i n : tl_rep tl l -> 0 <= i < zlen l -> exists tl', linkTuples_c tl i n = Ok tl' /\ tl_rep tl' (tl_after l (TLink i n)).
Proof.
  intros [H1 H2 H3 H4 H5] Hi. assert (Hl : (Z.to_nat i < List.length l)%nat) by (unfold zlen in *; lia). assert (Hc : (Z.to_nat i < List.length (tl_element tl))%nat) by (unfold zlen in *; lia).
  unfold linkTuples_c, outside. replace ((i <? 0) || (zlen (tl_element tl) <=? i)) with false by (rewrite H1; lia). eexists. split; [reflexivity|].
  cbn [tl_after]. destruct (nth_error l (Z.to_nat i)) as [t|] eqn:E; [|apply nth_error_None in E; lia].
  assert (Eu : firstn (Z.to_nat i) l ++ mkEntry (e_state t) (e_item t) n :: skipn (S (Z.to_nat i)) l = upd l (Z.to_nat i) (mkEntry (e_state t) (e_item t) n)) by (symmetry; apply upd_split, Hl).
  rewrite Eu. pose proof (H5 _ _ E) as Et. split; cbn [tl_element tl_count]; rewrite ?zlen_upd; auto.
  - apply Forall_upd; [exact H2|]. apply (Forall_nth_in _ _ _ no_cell H2 Hc).
  - intros k u Hu. destruct (Nat.eq_dec (Z.to_nat i) k) as [<-|Hk].
    + rewrite nth_error_upd_same in Hu by exact Hl. injection Hu as <-. rewrite nth_upd_same by exact Hc. unfold cell_at. rewrite <- Et. reflexivity.
    + rewrite nth_error_upd_other in Hu by exact Hk. rewrite nth_upd_other by exact Hk. apply H5, Hu.
Qed.
Definition tl_call (tl : tlist) (x : tl_op) : res tlist :=
  match x with TAdd s t => addTuple_c tl s t | TSpan s b e => addVirtualTuple_c tl s b e | TLink i n => linkTuples_c tl i n end.
Lemma tl_calls_rep : forall xs tl l, tl_rep tl l -> tls_fit l xs -> exists tl', foldM tl_call xs tl = Ok tl' /\ tl_rep tl' (fold_left tl_after xs l).
Proof.
  induction xs as [|x xs IH]; intros tl l H Hf; [exists tl; split; [reflexivity|exact H]|]. destruct Hf as [Hx Hf].
  assert (G : exists tl', tl_call tl x = Ok tl' /\ tl_rep tl' (tl_after l x)).
  { destruct x as [s t|s b e|i n]; cbn [tl_call tl_fits] in *.
    - destruct Hx as (X1 & X2 & X3). pose proof (tl_add_rep tl l s t H X1) as A. replace ((5000000 <=? zlen l) || (1000 <? zlen t + 2)) with false in A by lia. exact A.
    - destruct Hx as (X1 & X2). pose proof (tl_span_rep tl l s b e H ltac:(lia)) as A. replace (5000000 <=? zlen l) with false in A by lia. exact A.
    - apply tl_link_rep; assumption. }
  destruct G as (o1 & E & R). destruct (IH o1 _ R Hf) as (o' & E' & R'). exists o'. split; [|exact R']. cbn [foldM]. rewrite E. exact E'.
Qed.
Lemma tl_get_rep tl l i t : tl_rep tl l -> nth_error l i = Some t -> exists c, getTuple tl (Z.of_nat i) = Ok c /\ entry_of c = t.
Proof.
  intros [H1 H2 H3 H4 H5] Ht. assert (Hi : (i < List.length l)%nat) by (apply nth_error_Some; congruence). unfold getTuple, outside, cell_at.
  replace ((Z.of_nat i <? 0) || (zlen (tl_element tl) <=? Z.of_nat i)) with false by (rewrite H1; unfold zlen in *; lia). rewrite Nat2Z.id. eauto.
Qed.
Lemma tl_next_rep tl l i k t u : tl_rep tl l -> nth_error l i = Some t -> e_next t = Z.of_nat k -> nth_error l k = Some u ->
  exists c, getNextTuple tl (Z.of_nat i) = Ok c /\ entry_of c = u.
Proof.
  intros R Ht Hk Hu. destruct (tl_get_rep _ _ _ _ R Ht) as (c & E & Ec). unfold getNextTuple. rewrite E. cbn [bind].
  replace (tc_next c) with (Z.of_nat k) by (rewrite <- Hk, <- Ec; reflexivity). exact (tl_get_rep _ _ _ _ R Hu).
Qed.

(** * The lists of the other model files *)
Definition of_wtuple (t : wtuple) : entry := mkEntry (w_state t) (match w_val t with VText s => IText s | VSpan b e => ISpan b e end) (w_next t).
Lemma store_rep tl l s v : tl_rep tl (map of_wtuple l) -> match v with VText t => no_nul t | VSpan b _ => 0 <= b end ->
  match store_tuple l s v with
  | Ok l' => exists tl', match v with VText t => addTuple_c tl s t | VSpan b e => addVirtualTuple_c tl s b e end = Ok tl' /\ tl_rep tl' (map of_wtuple l')
  | UB r => match v with VText t => addTuple_c tl s t | VSpan b e => addVirtualTuple_c tl s b e end = UB r
  end.
Proof.
  intros R Hv. assert (El : zlen (map of_wtuple l) = zlen l) by (unfold zlen; rewrite map_length; reflexivity). unfold store_tuple, strcopy, MAX_TUPLE_LIST, MAX_TEXT. destruct v as [t|b e].
  - pose proof (tl_add_rep tl _ s t R Hv) as A. rewrite El in A. destruct (5000000 <=? zlen l); cbn [orb] in A; [exact A|]. destruct (1000 <? zlen t + 2); cbn [bind]; [exact A|]. rewrite map_app. exact A.
  - pose proof (tl_span_rep tl _ s b e R ltac:(lia)) as A. rewrite El in A. destruct (5000000 <=? zlen l); [exact A|]. rewrite map_app. exact A.
Qed.
Lemma map_upd {A C} (f : A -> C) : forall l n a, map f (upd l n a) = upd (map f l) n (f a).
Proof. induction l as [|x l IH]; intros [|n] a; cbn; try reflexivity. rewrite IH. reflexivity. Qed.
Lemma link_rep tl l i n : tl_rep tl (map of_wtuple l) -> forall l', linkTuples l i n = Ok l' -> exists tl', linkTuples_c tl i n = Ok tl' /\ tl_rep tl' (map of_wtuple l').
Proof.
  intros R l' E. unfold linkTuples, zread in E. destruct (znth l i) as [t|] eqn:Et; [|discriminate]. cbn [bind] in E. injection E as <-.
  unfold znth in Et. destruct (Z.ltb_spec i 0) as [|Hi]; [discriminate|]. assert (Hl : (Z.to_nat i < List.length l)%nat) by (apply nth_error_Some; congruence).
  destruct (tl_link_rep tl _ i n R) as (tl' & E & R'); [unfold zlen; rewrite map_length; lia|]. exists tl'. split; [exact E|]. cbn [tl_after] in R'.
  rewrite (map_nth_error of_wtuple _ _ Et) in R'. rewrite map_upd, upd_split by (rewrite map_length; exact Hl). exact R'.
Qed.

(** * Stacks *)
Record st_rep {A} (st : astack A) (l : list A) : Prop := {
  sr_size : zlen (s_item st) = 100;
  sr_fit  : zlen l <= 100;
  sr_top  : s_top st = zlen l - 1;
  sr_list : firstn (List.length l) (s_item st) = rev l
}.
Lemma st_init_rep {A} (junk : list A) : zlen junk = 100 -> st_rep (initStack junk) [].
Proof. intros H. split; cbn [initStack s_item s_top]; auto; try (rewrite zlen_nil; lia). Qed.
Lemma firstn_upd {A} : forall (l : list A) n a, (n < List.length l)%nat -> firstn (S n) (upd l n a) = firstn n l ++ [a].
Proof. induction l as [|x l IH]; intros [|n] a H; cbn in *; try lia; [reflexivity|]. f_equal. apply IH. lia. Qed.
Lemma st_push_rep {A} (st : astack A) l x : st_rep st l -> exists st', stackPush st x = Ok st' /\ st_rep st' (pushed l x).
Proof.
  intros [H1 H2 H3 H4]. unfold stackPush, pushed, MAX_STACK. rewrite H3. change (Z.of_nat 100 - 1) with 99. destruct (Z.ltb_spec (zlen l) 100) as [G|G].
  - replace (zlen l - 1 <? 99) with true by lia. replace (zlen l - 1 + 1) with (zlen l) by lia. replace ((zlen l <? 0) || (zlen (s_item st) <=? zlen l)) with false by (rewrite H1; unfold zlen in *; lia).
    eexists. split; [reflexivity|]. split; cbn [s_item s_top].
    + rewrite zlen_upd. exact H1.
    + rewrite zlen_cons. lia.
    + rewrite zlen_cons. lia.
    + cbn [List.length rev]. rewrite zlen_nat, firstn_upd by (unfold zlen in *; lia). rewrite H4. reflexivity.
  - replace (zlen l - 1 <? 99) with false by lia. exists st. split; [reflexivity|]. split; assumption.
Qed.
Lemma st_item {A} (st : astack A) l i x : st_rep st l -> nth_error (rev l) i = Some x -> item_at st (Z.of_nat i) = Ok x.
Proof.
  intros [H1 H2 H3 H4] Hx. unfold item_at, zread, znth. replace (Z.of_nat i <? 0) with false by lia. rewrite Nat2Z.id. rewrite <- H4 in Hx.
  replace (nth_error (s_item st) i) with (Some x); [reflexivity|]. symmetry. rewrite <- (firstn_skipn (List.length l) (s_item st)), nth_error_app1; [exact Hx|]. apply nth_error_Some. congruence.
Qed.
Lemma rev_top {A} (l : list A) x : nth_error (rev (x :: l)) (List.length l) = Some x.
Proof. cbn [rev]. rewrite nth_error_app2; rewrite rev_length; [rewrite Nat.sub_diag; reflexivity|lia]. Qed.
Lemma st_top_item {A} (st : astack A) x l : st_rep st (x :: l) -> item_at st (s_top st) = Ok x /\ (-1 <? s_top st) = true.
Proof.
  intros R. rewrite (sr_top _ _ R), zlen_cons. replace (zlen l + 1 - 1) with (Z.of_nat (List.length l)) by (unfold zlen; lia). split; [|lia].
  apply (st_item _ _ _ _ R). apply rev_top.
Qed.
Lemma st_pop_rep {A} (st : astack A) l : st_rep st l -> exists st', stackPop st = Ok (hd_error l, st') /\ st_rep st' (tl l).
Proof.
  intros R. unfold stackPop. destruct l as [|x l].
  - rewrite (sr_top _ _ R), zlen_nil. cbn. exists st. split; [reflexivity|exact R].
  - destruct (st_top_item st x l R) as [-> ->]. cbn [bind hd_error tl]. eexists. split; [reflexivity|]. destruct R as [H1 H2 H3 H4]. rewrite zlen_cons in *. split; cbn [s_item s_top]; [exact H1|lia|lia|].
    cbn [List.length rev] in H4. replace (firstn (List.length l) (s_item st)) with (firstn (List.length l) (firstn (S (List.length l)) (s_item st))) by (rewrite firstn_firstn; f_equal; lia).
    rewrite H4, firstn_app, rev_length, Nat.sub_diag, firstn_all2 by (rewrite rev_length; lia). apply app_nil_r.
Qed.
Lemma st_top_rep {A} (st : astack A) l : st_rep st l -> stackTop st = Ok (hd_error l).
Proof.
  intros R. unfold stackTop. destruct l as [|x l]; [rewrite (sr_top _ _ R), zlen_nil; reflexivity|]. destruct (st_top_item st x l R) as [-> ->]. reflexivity.
Qed.
Lemma st_second_rep {A} (st : astack A) l : st_rep st l -> stackSecondTop st = Ok (nth_error l 1).
Proof.
  intros R. unfold stackSecondTop. pose proof (sr_top _ _ R) as Ht. destruct l as [|x [|y l]]; rewrite ?zlen_cons, ?zlen_nil in Ht; rewrite Ht; [reflexivity|reflexivity|].
  replace (0 <? zlen l + 1 + 1 - 1) with true by (unfold zlen; lia). replace (zlen l + 1 + 1 - 1 - 1) with (Z.of_nat (List.length l)) by (unfold zlen; lia).
  rewrite (st_item _ _ _ y R); [reflexivity|]. cbn [rev]. rewrite nth_error_app1 by (rewrite app_length, rev_length; cbn; lia). apply (rev_top l y).
Qed.
Lemma fold_pushes {A} (src : astack A) : forall l2 k d l, (forall i x, nth_error l2 i = Some x -> item_at src (Z.of_nat (k + i)) = Ok x) -> st_rep d l ->
  exists d', foldM (fun d i => x <- item_at src (Z.of_nat i) ;; stackPush d x) (seq k (List.length l2)) d = Ok d' /\ st_rep d' (fold_left pushed l2 l).
Proof.
  induction l2 as [|x l2 IH]; intros k d l H R; [exists d; split; [reflexivity|exact R]|]. cbn [List.length seq foldM fold_left].
  pose proof (H 0%nat x eq_refl) as H0. rewrite Nat.add_0_r in H0. rewrite H0. cbn [bind]. destruct (st_push_rep d l x R) as (d1 & -> & R1). cbn [bind]. apply IH; [|exact R1].
  intros i y Hy. replace (S k + i)%nat with (k + S i)%nat by lia. apply H. exact Hy.
Qed.
Lemma st_combine_rep {A} (dst src : astack A) l l2 : st_rep dst l -> st_rep src l2 -> exists d, combineStack dst src = Ok d /\ st_rep d (st_after l (SCombine l2)).
Proof.
  intros R R2. unfold combineStack. replace (Z.to_nat (s_top src + 1)) with (List.length (rev l2)) by (rewrite rev_length, (sr_top _ _ R2); unfold zlen; lia).
  apply fold_pushes; [|exact R]. intros i x Hx. exact (st_item _ _ _ _ R2 Hx).
Qed.
(** A call; the stack to be combined comes with some array. *)
Definition st_call {A} (junk : list A) (st : astack A) (o : st_op A) : res (astack A) :=
  match o with
  | SPush x => stackPush st x
  | SPop => '(_, st') <- stackPop st ;; Ok st'
  | SCombine l => src <- foldM stackPush (rev l) (initStack junk) ;; combineStack st src
  end.
Definition st_fits {A} (o : st_op A) : Prop := match o with SCombine l => zlen l <= 100 | _ => True end.
Lemma foldM_ext {S A} (f g : S -> A -> res S) : (forall s a, f s a = g s a) -> forall l s, foldM f l s = foldM g l s.
Proof. intros H. induction l as [|a l IH]; intros s; [reflexivity|]. cbn [foldM]. rewrite H. destruct (g s a); [apply IH|reflexivity]. Qed.
Lemma pushes_rep {A} : forall l2 (d : astack A) l, st_rep d l -> exists d', foldM stackPush l2 d = Ok d' /\ st_rep d' (fold_left pushed l2 l).
Proof.
  induction l2 as [|x l2 IH]; intros d l R; [exists d; split; [reflexivity|exact R]|]. cbn [foldM fold_left]. destruct (st_push_rep d l x R) as (d1 & -> & R1). cbn [bind]. apply IH, R1.
Qed.
Lemma pushed_all {A} : forall (l : list A) l0, zlen l + zlen l0 <= 100 -> fold_left pushed (rev l) l0 = l ++ l0.
Proof.
  induction l as [|x l IH]; intros l0 H; [reflexivity|]. rewrite zlen_cons in H. cbn [rev]. rewrite fold_left_app, IH by lia. cbn [fold_left app]. unfold pushed. rewrite zlen_app.
  replace (zlen l + zlen l0 <? 100) with true by lia. reflexivity.
Qed.
Lemma st_calls_rep {A} (junk : list A) : zlen junk = 100 -> forall xs st l, st_rep st l -> Forall st_fits xs ->
  exists st', foldM (st_call junk) xs st = Ok st' /\ st_rep st' (fold_left st_after xs l).
Proof.
  intros Hj. induction xs as [|x xs IH]; intros st l R Hf; [exists st; split; [reflexivity|exact R]|]. apply Forall_cons_iff in Hf. destruct Hf as [Hx Hf]. cbn [foldM fold_left].
  assert (G : exists st', st_call junk st x = Ok st' /\ st_rep st' (st_after l x)).
  { destruct x as [x| |l2]; cbn [st_call st_after st_fits] in *.
    - apply st_push_rep, R.
    - destruct (st_pop_rep st l R) as (st' & -> & R'). exists st'. split; [reflexivity|exact R'].
    - destruct (pushes_rep (rev l2) _ [] (st_init_rep junk Hj)) as (src & -> & R2). cbn [bind]. rewrite pushed_all in R2 by (rewrite zlen_nil; lia). rewrite app_nil_r in R2. apply st_combine_rep; assumption. }
  destruct G as (st1 & -> & R1). cbn [bind]. apply IH; assumption.
Qed.

Lemma push_same {A} (l : list A) x : push l x = pushed l x.
Proof. unfold push, pushed, MAX_STACK, zlen. destruct (Nat.ltb_spec (List.length l) 100), (Z.ltb_spec (Z.of_nat (List.length l)) 100); try reflexivity; lia. Qed.
Lemma combine_same l l2 : combineSyntaxStack l l2 = st_after l (SCombine l2).
Proof. unfold combineSyntaxStack, st_after. revert l. induction (rev l2) as [|x r IH]; intros l; [reflexivity|]. cbn [fold_left]. rewrite push_same. apply IH. Qed.
