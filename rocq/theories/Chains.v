(** The linked lists of tuples that a worker keeps for its start states. *)
From Verif Require Import Base Util Lexer Dfa Constraint Stream Worker.
Open Scope Z_scope.

(** Positions of [id] in a list of owners. *)
Fixpoint posn (k : Z) (own : list Z) (id : Z) : list Z :=
  match own with
  | [] => []
  | x :: o => (if x =? id then [k] else []) ++ posn (k + 1) o id
  end.
Definition pos := posn 0.

Lemma posn_app : forall a k b id, posn k (a ++ b) id = posn k a id ++ posn (k + zlen a) b id.
Proof.
  induction a as [|x a IH]; intros k b id; cbn [posn app].
  - rewrite zlen_nil, Z.add_0_r. reflexivity.
  - rewrite IH, zlen_cons, <- app_assoc. do 3 f_equal. lia.
Qed.
Lemma pos_snoc own x id : pos (own ++ [x]) id = pos own id ++ (if x =? id then [zlen own] else []).
Proof. unfold pos. rewrite posn_app. cbn [posn]. rewrite app_nil_r. reflexivity. Qed.
Lemma posn_range : forall own k id i, In i (posn k own id) -> k <= i < k + zlen own.
Proof.
  induction own as [|x own IH]; intros k id i H; cbn in H; [contradiction|].
  rewrite zlen_cons. apply in_app_or in H. destruct H as [H|H].
  - destruct (x =? id); [|contradiction]. destruct H as [<-|[]]. pose proof (zlen_nonneg own). lia.
  - apply IH in H. lia.
Qed.
Lemma posn_owner : forall own k id i, In i (posn k own id) -> nth_error own (Z.to_nat (i - k)) = Some id.
Proof.
  induction own as [|x own IH]; intros k id i H; cbn in H; [contradiction|].
  apply in_app_or in H. destruct H as [H|H].
  - destruct (Z.eqb_spec x id) as [->|]; [|contradiction]. destruct H as [<-|[]]. rewrite Z.sub_diag. reflexivity.
  - pose proof (posn_range _ _ _ _ H). apply IH in H. replace (Z.to_nat (i - k)) with (S (Z.to_nat (i - (k + 1)))) by lia. exact H.
Qed.
Lemma pos_none own id : ~ In id own -> pos own id = [].
Proof.
  unfold pos. generalize 0. induction own as [|x own IH]; intros k H; cbn [posn]; [reflexivity|].
  destruct (Z.eqb_spec x id) as [->|]; [exfalso; apply H; left; reflexivity|]. apply IH. intros Hi. apply H. right. exact Hi.
Qed.

(** The links along a list of positions. *)
Fixpoint linked (tl : list wtuple) (p : list Z) : Prop :=
  match p with
  | [] => True
  | i :: p' => (exists t, zread tl i = Ok t /\ w_next t = match p' with j :: _ => j | [] => -1 end) /\ linked tl p'
  end.

Definition vals (tl : list wtuple) : list (Z * wval) := map (fun t => (w_state t, w_val t)) tl.

(** The values that belong to [id]. *)
Fixpoint owned {A} (own : list Z) (vs : list A) (id : Z) : list A :=
  match own, vs with
  | x :: own', v :: vs' => (if x =? id then [v] else []) ++ owned own' vs' id
  | _, _ => []
  end.
Lemma owned_app {A} : forall own (vs : list A) own2 vs2 id, List.length own = List.length vs ->
  owned (own ++ own2) (vs ++ vs2) id = owned own vs id ++ owned own2 vs2 id.
Proof.
  induction own as [|x own IH]; intros [|v vs] own2 vs2 id H; cbn in *; try discriminate; [reflexivity|].
  rewrite IH, <- app_assoc by congruence. reflexivity.
Qed.

Record chain_ok (own : list Z) (tl : list wtuple) : Prop := mkCh {
  ch_len : List.length own = List.length tl;
  ch_link : forall id, linked tl (pos own id)
}.

Definition ends (p : list Z) : Z * Z := (hd (-1) p, last p (-1)).

Lemma zlen_snoc {A} (l : list A) x : zlen (l ++ [x]) = zlen l + 1.
Proof. unfold zlen. rewrite app_length. cbn. lia. Qed.
Lemma znth_app1 {A} (l m : list A) i : 0 <= i < zlen l -> znth (l ++ m) i = znth l i.
Proof. unfold znth, zlen. intros H. destruct (Z.ltb_spec i 0); [lia|]. apply nth_error_app1. lia. Qed.
Lemma zread_app1 {A} (l m : list A) i : 0 <= i < zlen l -> zread (l ++ m) i = zread l i.
Proof. intros H. unfold zread. rewrite znth_app1 by exact H. reflexivity. Qed.
Lemma zread_app2 {A} (l m : list A) i : zread (l ++ m) (zlen l + i) = if i <? 0 then zread (l ++ m) (zlen l + i) else zread m i.
Proof.
  destruct (Z.ltb_spec i 0); [reflexivity|]. unfold zread, znth. pose proof (zlen_nonneg l). destruct (Z.ltb_spec (zlen l + i) 0); [lia|].
  destruct (Z.ltb_spec i 0); [lia|]. unfold zlen. rewrite nth_error_app2 by lia. replace (Z.to_nat (Z.of_nat (List.length l) + i) - List.length l)%nat with (Z.to_nat i) by lia. reflexivity.
Qed.
Lemma zread_inv {A} (l : list A) i a : zread l i = Ok a -> 0 <= i < zlen l /\ nth_error l (Z.to_nat i) = Some a.
Proof.
  unfold zread, znth. destruct (Z.ltb_spec i 0); [discriminate|]. destruct (nth_error l (Z.to_nat i)) as [x|] eqn:E; [|discriminate].
  intros H'; injection H' as ->. split; [|exact eq_refl]. assert (Z.to_nat i < List.length l)%nat by (apply nth_error_Some; congruence). unfold zlen. lia.
Qed.
Lemma zread_some {A} (l : list A) i a : 0 <= i -> nth_error l (Z.to_nat i) = Some a -> zread l i = Ok a.
Proof. intros H E. unfold zread, znth. destruct (Z.ltb_spec i 0); [lia|]. rewrite E. reflexivity. Qed.
Lemma zread_total {A} (l : list A) i : 0 <= i < zlen l -> exists a, zread l i = Ok a.
Proof.
  intros H. unfold zread, znth. destruct (Z.ltb_spec i 0); [lia|]. destruct (nth_error l (Z.to_nat i)) as [x|] eqn:E; [eauto|].
  apply nth_error_None in E. unfold zlen in H. lia.
Qed.
Lemma zread_upd {A} (l : list A) i a j : 0 <= i < zlen l -> 0 <= j -> zread (upd l (Z.to_nat i) a) j = if j =? i then Ok a else zread l j.
Proof.
  intros H Hj. unfold zread, znth. destruct (Z.ltb_spec j 0); [lia|]. destruct (Z.eqb_spec j i) as [->|].
  - rewrite nth_error_upd_same by (unfold zlen in H; lia). reflexivity.
  - rewrite nth_error_upd_other by lia. reflexivity.
Qed.
Lemma zlen_upd {A} (l : list A) i a : zlen (upd l i a) = zlen l.
Proof. unfold zlen. rewrite upd_length. reflexivity. Qed.
Lemma vals_upd : forall tl i t t', nth_error tl i = Some t -> w_state t' = w_state t -> w_val t' = w_val t -> vals (upd tl i t') = vals tl.
Proof.
  induction tl as [|x tl IH]; intros [|i] t t' H H1 H2; cbn in *; try discriminate.
  - injection H as ->. unfold vals. cbn. rewrite H1, H2. reflexivity.
  - unfold vals in *. cbn. f_equal. eapply IH; eauto.
Qed.

(** A new tuple at the end does not disturb the links; it is linked to by
    rewriting the end of a chain. *)
Lemma linked_app tl t : forall p, (forall i, In i p -> 0 <= i < zlen tl) -> linked tl p -> linked (tl ++ [t]) p.
Proof.
  induction p as [|i p IH]; intros H1 H2; cbn in *; [exact I|]. destruct H2 as [(u & E & Hn) H2].
  split; [exists u; split; [rewrite zread_app1 by (apply H1; left; reflexivity); exact E|exact Hn]|]. apply IH; [intros; apply H1; right; assumption|exact H2].
Qed.
Lemma linked_upd tl k t : 0 <= k < zlen tl -> forall p, ~ In k p -> (forall i, In i p -> 0 <= i) -> linked tl p -> linked (upd tl (Z.to_nat k) t) p.
Proof.
  intros Hk. induction p as [|i p IH]; intros H1 H0 H2; cbn in *; [exact I|]. destruct H2 as [(u & E & Hn) H2].
  split; [|apply IH; [tauto|auto|exact H2]]. exists u. split; [|exact Hn]. rewrite zread_upd by (auto; lia).
  destruct (Z.eqb_spec i k) as [->|]; [exfalso; apply H1; left; reflexivity|exact E].
Qed.
Lemma linked_snoc tl tnew : forall p k t, p <> [] -> last p (-1) = k -> NoDup p -> (forall i, In i p -> 0 <= i < zlen tl) -> linked tl p ->
  zread tl k = Ok t -> w_next tnew = -1 ->
  linked (upd (tl ++ [tnew]) (Z.to_nat k) (mkT (w_state t) (w_val t) (zlen tl))) (p ++ [zlen tl]).
Proof.
  induction p as [|i p IH]; intros k t Hne Hl Hnd Hr H E Hn; [congruence|]. inversion Hnd as [|? ? Hni Hnd']; subst.
  destruct H as [(u & Eu & Hu) H]. destruct p as [|j p].
  - cbn [last] in *. cbn [app linked]. assert (u = t) as -> by congruence. pose proof (Hr i (or_introl eq_refl)).
    split; [|split; [|exact I]].
    + exists (mkT (w_state t) (w_val t) (zlen tl)). split; [|reflexivity]. assert (Hb : 0 <= i < zlen (tl ++ [tnew])) by (rewrite zlen_app; pose proof (zlen_nonneg [tnew]); lia). rewrite zread_upd by (exact Hb || lia). rewrite Z.eqb_refl. reflexivity.
    + exists tnew. split; [|exact Hn]. assert (Hb : 0 <= i < zlen (tl ++ [tnew])) by (rewrite zlen_app; pose proof (zlen_nonneg [tnew]); lia). rewrite zread_upd by (exact Hb || apply zlen_nonneg).
      destruct (Z.eqb_spec (zlen tl) i); [lia|]. apply zread_some; [lia|]. unfold zlen. rewrite Nat2Z.id, nth_error_app2, Nat.sub_diag by lia. reflexivity.
  - assert (Hk : last (j :: p) (-1) = last (i :: j :: p) (-1)) by reflexivity.
    specialize (IH _ t ltac:(discriminate) Hk Hnd' ltac:(intros; apply Hr; right; assumption) H E Hn).
    split; [|exact IH]. exists u. split; [|exact Hu].
    pose proof (Hr i (or_introl eq_refl)).
    assert (Hin : In (last (i :: j :: p) (-1)) (j :: p)).
    { rewrite <- Hk. clear. revert j. induction p as [|x p IH]; intros j; [left; reflexivity|]. right. apply IH. }
    rewrite zread_upd; [|rewrite zlen_snoc; pose proof (Hr _ (or_intror Hin)); lia|lia].
    destruct (Z.eqb_spec i (last (i :: j :: p) (-1))) as [Ei|_]; [exfalso; apply Hni; rewrite Ei at 1; exact Hin|].
    rewrite zread_app1 by lia. exact Eu.
Qed.
Lemma pos_nodup own id : NoDup (pos own id).
Proof.
  unfold pos. generalize 0. induction own as [|x own IH]; intros k; cbn [posn]; [constructor|].
  destruct (x =? id); [|apply IH]. constructor; [|apply IH]. intros H. apply posn_range in H. lia.
Qed.
Lemma last_in {A} (p : list A) x : p <> [] -> In (last p x) p.
Proof. induction p as [|a [|b p] IH]; intros H; [congruence|left; reflexivity|]. right. apply IH. discriminate. Qed.

(** Adding a tuple for the chain [id]. *)
Lemma chain_add own tl id st v : chain_ok own tl ->
  exists tl', chain_ok (own ++ [id]) tl' /\ vals tl' = vals tl ++ [(st, v)] /\
    (let new := tl ++ [mkT st v (-1)] in
     match pos own id with
     | [] => tl' = new
     | p => exists t, zread new (last p (-1)) = Ok t /\ tl' = upd new (Z.to_nat (last p (-1))) (mkT (w_state t) (w_val t) (zlen tl))
     end).
Proof.
  intros [Hlen Hlink]. assert (Hz : zlen own = zlen tl) by (unfold zlen; congruence).
  assert (Hrange : forall j i, In i (pos own j) -> 0 <= i < zlen tl) by (intros j i H; apply posn_range in H; lia).
  assert (Hother : forall j, j <> id -> linked (tl ++ [mkT st v (-1)]) (pos own j)) by (intros j _; apply linked_app; [intros; eapply Hrange; eassumption|apply Hlink]).
  assert (Hv : vals (tl ++ [mkT st v (-1)]) = vals tl ++ [(st, v)]) by (unfold vals; rewrite map_app; reflexivity).
  destruct (pos own id) as [|i p] eqn:Ep.
  - eexists. split; [|split; [exact Hv|reflexivity]]. split; [rewrite !app_length, Hlen; reflexivity|].
    intros j. rewrite pos_snoc. destruct (Z.eqb_spec id j) as [<-|Hne]; [|rewrite app_nil_r; apply Hother; congruence].
    rewrite Ep. cbn. split; [|exact I]. exists (mkT st v (-1)). split; [|reflexivity]. apply zread_some; [unfold zlen; lia|]. rewrite Hz. unfold zlen. rewrite Nat2Z.id, nth_error_app2, Nat.sub_diag by lia. reflexivity.
  - assert (Hin : In (last (i :: p) (-1)) (pos own id)) by (rewrite Ep; apply last_in; discriminate).
    destruct (zread_total tl (last (i :: p) (-1)) (Hrange _ _ Hin)) as (t & Et).
    assert (Et' : zread (tl ++ [mkT st v (-1)]) (last (i :: p) (-1)) = Ok t) by (rewrite zread_app1 by (apply (Hrange id); exact Hin); exact Et).
    eexists. split; [|split; [|exists t; split; [exact Et'|reflexivity]]].
    + split; [rewrite upd_length, !app_length, Hlen; reflexivity|]. intros j. rewrite pos_snoc. destruct (Z.eqb_spec id j) as [<-|Hne].
      * rewrite Hz. apply linked_snoc; try assumption; try reflexivity.
        -- rewrite Ep. discriminate.
        -- rewrite Ep. reflexivity.
        -- apply pos_nodup.
        -- intros k Hk. apply (Hrange _ _ Hk).
        -- apply Hlink.
      * rewrite app_nil_r. apply linked_upd.
        -- rewrite zlen_snoc. pose proof (Hrange _ _ Hin). lia.
        -- intros H. apply posn_owner in H. apply posn_owner in Hin. congruence.
        -- intros k Hk. apply (Hrange _ _ Hk).
        -- apply Hother. congruence.
    + destruct (zread_inv _ _ _ Et') as [Hb Hn]. rewrite <- Hv. eapply vals_upd; [exact Hn|reflexivity|reflexivity].
Qed.
