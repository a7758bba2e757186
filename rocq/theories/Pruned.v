(** The lowest level of a worker after a choice of start states (pruneQueryPaths). *)
From Verif Require Import Base Util Lexer Dfa Constraint Stream TreeSem Worker Chains WorkRep Shared MalSpec NestSpec Single Specul.
From Coq Require Import Permutation.
Open Scope Z_scope.

Definition idz : Z -> Z := fun r => r.
(** The states of a list by their numbers. *)
Definition sel (q : list Z) : Z -> Z := fun r => nth (Z.to_nat r) q 0.

(** * New names for the chains *)
Fixpoint idx (q : list Z) (x : Z) : option Z :=
  match q with
  | [] => None
  | y :: q' => if x =? y then Some 0 else match idx q' x with Some i => Some (i + 1) | None => None end
  end.
Lemma idx_some : forall q x i, idx q x = Some i -> 0 <= i < zlen q /\ sel q i = x.
Proof.
  induction q as [|y q IH]; intros x i H; cbn [idx] in H; [discriminate|]. rewrite zlen_cons. pose proof (zlen_nonneg q) as Hz.
  destruct (Z.eqb_spec x y) as [->|_]; [injection H as <-; split; [lia|reflexivity]|].
  destruct (idx q x) as [j|] eqn:E; [|discriminate]. injection H as <-. destruct (IH x j E) as [H1 H2]. split; [lia|].
  unfold sel in *. replace (Z.to_nat (j + 1)) with (S (Z.to_nat j)) by lia. exact H2.
Qed.
Lemma idx_in : forall q x, In x q -> exists i, idx q x = Some i.
Proof.
  induction q as [|y q IH]; intros x H; [destruct H|]. cbn [idx]. destruct (Z.eqb_spec x y); [eauto|]. destruct H as [->|H]; [congruence|].
  destruct (IH x H) as (i & ->). eauto.
Qed.
Lemma idx_none q x : idx q x = None -> ~ In x q.
Proof. intros H Hi. destruct (idx_in q x Hi) as (i & E). congruence. Qed.
Lemma sel_in q r : 0 <= r < zlen q -> In (sel q r) q.
Proof. intros H. unfold sel. apply nth_In. unfold zlen in H. lia. Qed.
Lemma sel_inj q r r' : NoDup q -> 0 <= r < zlen q -> 0 <= r' < zlen q -> sel q r = sel q r' -> r = r'.
Proof.
  intros Hn H H' E. unfold sel in E. unfold zlen in *. rewrite (NoDup_nth q 0) in Hn. specialize (Hn (Z.to_nat r) (Z.to_nat r') ltac:(lia) ltac:(lia) E). lia.
Qed.
Lemma idx_sel q r : NoDup q -> 0 <= r < zlen q -> idx q (sel q r) = Some r.
Proof.
  intros Hn H. destruct (idx_in q (sel q r) (sel_in q r H)) as (i & E). rewrite E. destruct (idx_some _ _ _ E) as [H1 H2]. f_equal. eapply sel_inj; eassumption.
Qed.

(** Renaming of the chains of the chosen states. *)
Definition rename (kid top : Z) (q : list Z) (x : Z) : Z := match idx q (x - kid) with Some i => top + i | None => x end.

Lemma posn_map f id id' : forall own k, (forall x, In x own -> (f x = id' <-> x = id)) -> posn k (map f own) id' = posn k own id.
Proof.
  induction own as [|x own IH]; intros k H; cbn [map posn]; [reflexivity|]. rewrite IH by (intros y Hy; apply H; right; exact Hy). f_equal.
  pose proof (H x (or_introl eq_refl)) as Hx. destruct (Z.eqb_spec (f x) id'), (Z.eqb_spec x id); tauto.
Qed.
Lemma owned_map {A} f id id' : forall own (vs : list A), (forall x, In x own -> (f x = id' <-> x = id)) -> owned (map f own) vs id' = owned own vs id.
Proof.
  induction own as [|x own IH]; intros [|v vs] H; cbn [map owned]; try reflexivity. rewrite IH by (intros y Hy; apply H; right; exact Hy). f_equal.
  pose proof (H x (or_introl eq_refl)) as Hx. destruct (Z.eqb_spec (f x) id'), (Z.eqb_spec x id); tauto.
Qed.

Section Rename.
  Variables (kid top : Z) (q own : list Z).
  Hypothesis Hq : NoDup q.
  Hypothesis Hr : Forall (fun s => 0 <= s /\ kid + s < top) q.
  Hypothesis Hown : Forall (fun x => x < top) own.
  Notation f := (rename kid top q).

  Lemma rename_new r x : 0 <= r < zlen q -> In x own -> (f x = top + r <-> x = kid + sel q r).
  Proof.
    intros H Hx. rewrite Forall_forall in Hown, Hr. specialize (Hown x Hx). pose proof (Hr _ (sel_in q r H)) as Hs. unfold rename. destruct (idx q (x - kid)) as [i|] eqn:E.
    - destruct (idx_some _ _ _ E) as [H1 H2]. split; intros H3.
      + replace i with r in H2 by lia. lia.
      + assert (i = r); [|lia]. apply (sel_inj q); auto. lia.
    - split; intros H3; [lia|]. exfalso. apply (idx_none _ _ E). replace (x - kid) with (sel q r) by lia. apply sel_in, H.
  Qed.
  Lemma rename_low id x : id < kid -> In x own -> (f x = id <-> x = id).
  Proof.
    intros H Hx. rewrite Forall_forall in Hr. unfold rename. destruct (idx q (x - kid)) as [i|] eqn:E; [|tauto]. destruct (idx_some _ _ _ E) as [H1 H2].
    pose proof (Hr _ (sel_in q i H1)) as Hs. lia.
  Qed.
  Lemma rename_chain tw : chain_ok own tw -> chain_ok (map f own) tw.
  Proof.
    intros [H1 H2]. split; [rewrite map_length; exact H1|]. intros id.
    assert (Hcase : (exists r, 0 <= r < zlen q /\ id = top + r) \/ (forall x, In x own -> (f x = id <-> x = id)) \/ (forall x, In x own -> f x <> id)).
    { destruct (idx q (id - kid)) as [i|] eqn:E.
      - (* an old name of a chosen state *)
        destruct (idx_some _ _ _ E) as [G1 G2]. rewrite Forall_forall in Hr. pose proof (Hr _ (sel_in q i G1)) as Hs.
        right. right. intros x Hx Hfx. unfold rename in Hfx. destruct (idx q (x - kid)) as [j|] eqn:Ej.
        + destruct (idx_some _ _ _ Ej) as [G3 G4]. lia.
        + subst x. congruence.
      - destruct (Z_lt_dec id top) as [Hlt|Hge].
        + right. left. intros x Hx. unfold rename. destruct (idx q (x - kid)) as [j|] eqn:Ej; [|tauto]. destruct (idx_some _ _ _ Ej) as [G3 G4]. split; [lia|]. intros ->. congruence.
        + destruct (Z_lt_dec id (top + zlen q)) as [Hlt'|Hge']; [left; exists (id - top); split; [lia|lia]|]. right. right. intros x Hx Hfx. unfold rename in Hfx.
          rewrite Forall_forall in Hown. specialize (Hown x Hx). destruct (idx q (x - kid)) as [j|] eqn:Ej; [destruct (idx_some _ _ _ Ej) as [G3 G4]; lia|lia]. }
    destruct Hcase as [(r & Hr0 & ->)|[Hs|Hs]].
    - unfold pos. rewrite (posn_map f (kid + sel q r)) by (intros x Hx; apply rename_new; assumption). apply H2.
    - unfold pos. rewrite (posn_map f id) by exact Hs. apply H2.
    - rewrite pos_none; [exact I|]. intros Hi. apply in_map_iff in Hi as (x & E & Hx). exact (Hs x Hx E).
  Qed.
  Lemma rename_ids : Forall (fun x => x < top + zlen q) (map f own).
  Proof.
    rewrite Forall_map. apply Forall_forall. intros x Hx. rewrite Forall_forall in Hown. specialize (Hown x Hx). unfold rename. pose proof (zlen_nonneg q).
    destruct (idx q (x - kid)) as [j|] eqn:Ej; [destruct (idx_some _ _ _ Ej) as [G3 G4]|]; lia.
  Qed.
End Rename.

(** * The chosen nodes *)
Definition chosen (s : seg) (q : list Z) : seg := map (fun p => (fst (nth (Z.to_nat (snd p)) s (root_node 0, [])), [fst p])) (combine (iota (List.length q)) q).

Lemma combine_iota_nth (q : list Z) i : (i < List.length q)%nat -> nth_error (combine (iota (List.length q)) q) i = Some (Z.of_nat i, nth i q 0).
Proof.
  intros H. assert (G : forall (a b : list Z) i x y, nth_error a i = Some x -> nth_error b i = Some y -> nth_error (combine a b) i = Some (x, y)).
  { clear. induction a as [|x0 a IH]; intros [|y0 b] [|i] x y; cbn; try discriminate; [congruence|apply IH]. }
  apply G; [apply nth_iota, H|apply nth_error_nth', H].
Qed.
Lemma combine_iota_len (q : list Z) : List.length (combine (iota (List.length q)) q) = List.length q.
Proof. rewrite combine_length, iota_length. lia. Qed.
Lemma chosen_len s (q : list Z) : List.length (chosen s q) = List.length q.
Proof. unfold chosen. rewrite map_length. apply combine_iota_len. Qed.
Lemma chosen_roots s (q : list Z) : flat_map snd (chosen s q) = iota (List.length q).
Proof.
  unfold chosen. assert (G : forall a b : list Z, List.length a = List.length b -> flat_map snd (map (fun p => (fst (nth (Z.to_nat (snd p)) s (root_node 0, [])), [fst p])) (combine a b)) = a).
  { induction a as [|x a IH]; intros [|y b] H; cbn in *; try discriminate; [reflexivity|]. f_equal. apply IH. congruence. }
  apply G, iota_length.
Qed.

Section Chosen.
  Variables (R0 : nat) (s : seg) (q : list Z).
  Hypothesis Hb : base_ok R0 idz s.
  Hypothesis Hq : Forall (fun x => 0 <= x < Z.of_nat R0) q.
  Hypothesis Hne : q <> [].

  Lemma base_nth r : 0 <= r < Z.of_nat R0 -> exists n, nth_error s (Z.to_nat r) = Some (n, [r]) /\ t_state n = r /\ t_pend n = Some (-1) /\ t_root n = Some (0, -1).
  Proof.
    intros H. assert (Hl : List.length s = R0) by (pose proof Hb as Hb'; unfold base_ok in Hb'; apply (f_equal (@List.length _)) in Hb'; rewrite !map_length, iota_length in Hb'; exact Hb').
    destruct (nth_error s (Z.to_nat r)) as [[n rs]|] eqn:E; [|apply nth_error_None in E; lia].
    pose proof Hb as Hn. unfold base_ok in Hn. apply (f_equal (fun x => nth_error x (Z.to_nat r))) in Hn. rewrite !nth_error_map, E, nth_iota in Hn by lia. cbn in Hn. rewrite Z2Nat.id in Hn by lia.
    injection Hn as H1 H2 H3 H4. exists n. subst rs. auto.
  Qed.
  Lemma base_nth' r : 0 <= r < Z.of_nat R0 -> exists n, nth (Z.to_nat r) s (root_node 0, []) = (n, [r]) /\ nth_error s (Z.to_nat r) = Some (n, [r]) /\ t_state n = r /\ t_pend n = Some (-1) /\ t_root n = Some (0, -1).
  Proof. intros H. destruct (base_nth r H) as (n & E & G). exists n. split; [apply nth_error_nth; exact E|]. auto. Qed.
  Lemma base_view_nth r n : 0 <= r < Z.of_nat R0 -> nth_error s (Z.to_nat r) = Some (n, [r]) -> view r s = Some n.
  Proof.
    intros H E. destruct (view r s) as [m|] eqn:Ev.
    - apply view_in in Ev as (rs & Hi & Hr). apply In_nth_error in Hi as (i & Ei).
      assert (Hi : (i < R0)%nat). { pose proof Hb as Hl. unfold base_ok in Hl. apply (f_equal (@List.length _)) in Hl. rewrite !map_length, iota_length in Hl. assert (nth_error s i <> None) by congruence. apply nth_error_Some in H0. lia. }
      destruct (base_nth (Z.of_nat i) ltac:(lia)) as (m' & Em & _). rewrite Nat2Z.id in Em. rewrite Ei in Em. injection Em as -> ->. destruct Hr as [<-|[]]. rewrite Nat2Z.id, Ei in E. injection E as <-. reflexivity.
    - exfalso. assert (Hin : In r (flat_map snd s)). { apply in_flat_map. exists (n, [r]). split; [eapply nth_error_In; exact E|left; reflexivity]. }
      destruct (view_some _ _ Hin). congruence.
  Qed.

  Lemma chosen_nth i : (i < List.length q)%nat -> exists n, nth_error (chosen s q) i = Some (n, [Z.of_nat i]) /\ view (nth i q 0) s = Some n /\
    t_state n = nth i q 0 /\ t_pend n = Some (-1) /\ t_root n = Some (0, -1).
  Proof.
    intros H. unfold chosen. rewrite nth_error_map, combine_iota_nth by exact H. cbn [option_map fst snd].
    assert (Hr : 0 <= nth i q 0 < Z.of_nat R0) by (rewrite Forall_forall in Hq; apply Hq, nth_In, H).
    destruct (base_nth' _ Hr) as (n & -> & E & G). exists n. split; [reflexivity|]. split; [apply base_view_nth; assumption|exact G].
  Qed.
  Lemma chosen_view r : 0 <= r < zlen q -> view r (chosen s q) = view (sel q r) s.
  Proof.
    intros H. unfold zlen in H. destruct (chosen_nth (Z.to_nat r) ltac:(lia)) as (n & E & Ev & _). unfold sel. rewrite Ev.
    assert (Hin : In r (flat_map snd (chosen s q))) by (rewrite chosen_roots; apply in_iota; lia).
    destruct (view_some _ _ Hin) as (m & Em). rewrite Em. f_equal. apply view_in in Em as (rs & Hi & Hr). apply In_nth_error in Hi as (i & Ei).
    assert (Hi : (i < List.length q)%nat) by (rewrite <- (chosen_len s q); apply nth_error_Some; congruence).
    destruct (chosen_nth i Hi) as (m' & Em' & _). rewrite Ei in Em'. injection Em' as -> ->. destruct Hr as [<-|[]]. rewrite Nat2Z.id, Ei in E. congruence.
  Qed.
  Lemma chosen_base : base_ok (List.length q) (sel q) (chosen s q).
  Proof.
    unfold base_ok. apply list_ext; rewrite !map_length; [rewrite chosen_len, iota_length; reflexivity|]. rewrite chosen_len. intros i Hi. rewrite !nth_error_map, nth_iota by exact Hi.
    destruct (chosen_nth i Hi) as (n & -> & _ & H1 & H2 & H3). cbn. unfold sel. rewrite Nat2Z.id. congruence.
  Qed.
  Lemma chosen_levels : levels (List.length q) (sel q) [chosen s q] 0 [].
  Proof.
    cbn [levels fl]. split; [|split; [|split; [|split; [reflexivity|split; [reflexivity|exact chosen_base]]]]].
    - split; [rewrite chosen_roots; apply Permutation_refl|]. unfold chosen. rewrite Forall_map. apply Forall_forall. discriminate.
    - pose proof chosen_base as Hc. unfold base_ok in Hc. change (zlen (@nil tnode)) with (Z.of_nat 0). revert Hc. unfold iota.
      assert (G : forall n k (t : seg), map (fun p => (t_state (fst p), t_pend (fst p), t_root (fst p), snd p)) t = map (fun r => (sel q r, Some (-1), Some (0, -1), [r])) (map Z.of_nat (seq k n)) ->
                (k + n <= List.length q)%nat -> seg_ok (List.length q) [] (Z.of_nat k) t).
      { induction n as [|n IH]; intros k [|[m rs] t] H Hk; cbn in H; try discriminate; [exact I|]. injection H as H1 H2 H3 H4 H5. cbn [seg_ok]. refine (conj _ (conj _ _)).
        - exists 0, (-1). split; [exact H3|]. exact H4.
        - subst rs. constructor; [lia|constructor].
        - replace (Z.of_nat k + 1) with (Z.of_nat (S k)) by lia. apply IH; [exact H5|lia]. }
      intros Hc. eapply (G (List.length q)); [exact Hc|lia].
    - destruct (exists_last (l := chosen s q)) as (s0 & [n rs] & E). { intros E. apply (f_equal (@List.length _)) in E. rewrite chosen_len in E. destruct q; [congruence|discriminate]. }
      exists s0, n, rs, 0. split; [exact E|].
      assert (Hn : nth_error (chosen s q) (List.length s0) = Some (n, rs)) by (rewrite E, nth_error_app2, Nat.sub_diag by lia; reflexivity).
      destruct (chosen_nth (List.length s0)) as (m & Em & _ & _ & H2 & H3); [rewrite <- (chosen_len s q); apply nth_error_Some; congruence|].
      rewrite Hn in Em. injection Em as <- _. auto.
  Qed.
End Chosen.
