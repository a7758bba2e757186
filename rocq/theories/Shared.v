(** The nodes that a worker shares between its start states: levels of nodes, the
    loops over a level, push and pop. *)
From Verif Require Import Base Util Lexer Dfa Constraint Stream TreeSem Worker Chains WorkRep.
From Coq Require Import Permutation.
Open Scope Z_scope.

(** A level: its nodes with the start states that lead to them. *)
Definition seg := list (tnode * list Z).
(** Levels, the top first. *)
Fixpoint fl (L : list seg) : list tnode := match L with [] => [] | s :: L' => fl L' ++ map fst s end.
Definition rng (L : list seg) : Z * Z :=
  match L with [] => (0, -1) | s :: L' => (zlen (fl L'), zlen (fl L') + zlen s - 1) end.
Fixpoint itm (L : list seg) : list (Z * Z) := match L with [] => [] | _ :: L' => rng L :: itm L' end.

Lemma itm_length L : List.length (itm L) = List.length L.
Proof. induction L; cbn; congruence. Qed.
Lemma fl_zlen s L : zlen (fl (s :: L)) = zlen (fl L) + zlen s.
Proof. cbn [fl]. rewrite zlen_app. f_equal. unfold zlen. rewrite map_length. reflexivity. Qed.

Fixpoint view (r : Z) (s : seg) : option tnode :=
  match s with [] => None | (n, rs) :: s' => if existsb (Z.eqb r) rs then Some n else view r s' end.

Lemma existsb_in r rs : existsb (Z.eqb r) rs = true <-> In r rs.
Proof.
  rewrite existsb_exists. split.
  - intros (x & H & E). apply Z.eqb_eq in E. subst. exact H.
  - intros H. exists r. split; [exact H|apply Z.eqb_refl].
Qed.
Lemma view_in r s n : view r s = Some n -> exists rs, In (n, rs) s /\ In r rs.
Proof.
  induction s as [|[m rs] s IH]; cbn; [discriminate|]. destruct (existsb (Z.eqb r) rs) eqn:E.
  - intros H. injection H as ->. exists rs. split; [left; reflexivity|apply existsb_in, E].
  - intros H. destruct (IH H) as (rs' & H1 & H2). eauto.
Qed.
Lemma view_some r s : In r (flat_map snd s) -> exists n, view r s = Some n.
Proof.
  induction s as [|[m rs] s IH]; cbn; [tauto|]. intros H. apply in_app_or in H. destruct (existsb (Z.eqb r) rs) eqn:E; [eauto|].
  destruct H as [H|H]; [apply existsb_in in H; congruence|auto].
Qed.
Lemma view_none r s : ~ In r (flat_map snd s) -> view r s = None.
Proof.
  induction s as [|[m rs] s IH]; cbn; [reflexivity|]. intros H. destruct (existsb (Z.eqb r) rs) eqn:E.
  - exfalso. apply H, in_or_app. left. apply existsb_in, E.
  - apply IH. intros Hi. apply H, in_or_app. auto.
Qed.

(** * Changing the nodes of a level *)
Definition mapseg (g : elt -> elt * option wval) (s : seg) : seg :=
  map (fun p => (set_elt (fst p) (q_count (fst (g (elt_of (fst p))))) (q_ms (fst (g (elt_of (fst p))))), snd p)) s.

Lemma mapseg_zlen g s : zlen (mapseg g s) = zlen s.
Proof. unfold zlen, mapseg. rewrite map_length. reflexivity. Qed.
Lemma mapseg_roots g s : flat_map snd (mapseg g s) = flat_map snd s.
Proof. unfold mapseg. induction s as [|[n rs] s IH]; cbn; [reflexivity|]. rewrite IH. reflexivity. Qed.
Lemma view_mapseg g r s : view r (mapseg g s) =
  match view r s with Some n => Some (set_elt n (q_count (fst (g (elt_of n)))) (q_ms (fst (g (elt_of n))))) | None => None end.
Proof. induction s as [|[n rs] s IH]; cbn; [reflexivity|]. destruct (existsb (Z.eqb r) rs); [reflexivity|exact IH]. Qed.
Lemma elt_of_set n c m : elt_of (set_elt n c m) = mkElt (t_state n) c m.
Proof. reflexivity. Qed.

Lemma seg_ok_mapseg R rp g : forall s i, seg_ok R rp i s -> seg_ok R rp i (mapseg g s).
Proof. induction s as [|[n rs] s IH]; intros i H; cbn in *; [exact I|]. destruct H as (H1 & H2 & H3). split; [exact H1|]. auto. Qed.
Lemma mapM_prefix (rp x : list Z) : forall (is rs : list Z), mapM (zread rp) is = Ok rs -> mapM (zread (rp ++ x)) is = Ok rs.
Proof.
  induction is as [|i is IH]; intros rs H; cbn [mapM] in *; [exact H|].
  destruct (zread rp i) as [a|] eqn:E; [|discriminate]. cbn [bind] in *. rewrite zread_app1 by (apply zread_inv in E; tauto). rewrite E. cbn [bind].
  destruct (mapM (zread rp) is) as [rs'|]; [|discriminate]. rewrite (IH rs' eq_refl). exact H.
Qed.
Lemma seg_ok_ext R rp x : forall s i, seg_ok R rp i s -> seg_ok R (rp ++ x) i s.
Proof.
  induction s as [|[n rs] s IH]; intros i H; cbn in *; [exact I|]. destruct H as ((a & e & H1 & H2) & H3 & H4). split; [|auto].
  exists a, e. split; [exact H1|]. destruct (e =? -1); [exact H2|]. apply mapM_prefix, H2.
Qed.

(** The outputs of a level, in the order of its nodes. *)
Lemma outs_ok f g : forall s : seg, Forall (fun p => app1 f (rootp (fst p)) (elt_of (fst p)) = Ok (g (elt_of (fst p)))) s ->
  mapM (fun p => app1 f (rootp (fst p)) (elt_of (fst p))) s = Ok (map (fun p => g (elt_of (fst p))) s).
Proof.
  induction s as [|p s IH]; intros H; cbn [mapM map]; [reflexivity|]. apply Forall_cons_iff in H as [H1 H2]. rewrite H1. cbn [bind]. rewrite (IH H2). reflexivity.
Qed.
Lemma res_seg_map g s : res_seg s (map (fun p => g (elt_of (fst p))) s) = map fst (mapseg g s).
Proof. unfold res_seg, mapseg. induction s as [|[n rs] s IH]; cbn; [reflexivity|]. rewrite IH. reflexivity. Qed.

Definition out_for (g : elt -> elt * option wval) (r : Z) (s : seg) : list (Z * wval) :=
  match view r s with
  | Some n => match snd (g (elt_of n)) with Some v => [(t_state n, v)] | None => [] end
  | None => []
  end.

Lemma owned_none {A} : forall own (vs : list A) id, ~ In id own -> owned own vs id = [].
Proof.
  induction own as [|x own IH]; intros [|v vs] id H; cbn in *; try reflexivity. destruct (Z.eqb_spec x id); [exfalso; apply H; left; assumption|]. apply IH. tauto.
Qed.
Lemma owned_block (k : Z) (v : Z * wval) r : forall rs, NoDup rs -> owned (map (Z.add k) rs) (map (fun _ => v) rs) (k + r) = if existsb (Z.eqb r) rs then [v] else [].
Proof.
  induction rs as [|x rs IH]; intros H; cbn [map owned existsb]; [reflexivity|]. inversion H as [|? ? Hn Hd]; subst.
  destruct (Z.eqb_spec r x) as [->|Hne]; cbn [orb].
  - replace (k + x =? k + x) with true by lia. cbn [app]. f_equal. apply owned_none. rewrite in_map_iff. intros (y & E & Hy). assert (y = x) by lia. subst. contradiction.
  - replace (k + x =? k + r) with false by lia. cbn [app]. apply IH, Hd.
Qed.

Lemma seg_own_length (k : Z) g : forall s : seg, List.length (seg_own k s (map (fun p => g (elt_of (fst p))) s)) = List.length (seg_vals s (map (fun p => g (elt_of (fst p))) s)).
Proof.
  unfold seg_own, seg_vals. induction s as [|[n rs] s IH]; cbn; [reflexivity|]. destruct (snd (g (elt_of n))); [|exact IH]. rewrite !app_length, !map_length, IH. reflexivity.
Qed.
Lemma seg_own_in k g : forall s : seg, forall x, In x (seg_own k s (map (fun p => g (elt_of (fst p))) s)) -> exists r, x = k + r /\ In r (flat_map snd s).
Proof.
  unfold seg_own. induction s as [|[n rs] s IH]; cbn; [tauto|]. intros x H. destruct (snd (g (elt_of n))).
  - apply in_app_or in H as [H|H].
    + apply in_map_iff in H as (r & <- & Hr). exists r. split; [reflexivity|]. apply in_or_app. auto.
    + destruct (IH x H) as (r & -> & Hr). exists r. split; [reflexivity|]. apply in_or_app. auto.
  - destruct (IH x H) as (r & -> & Hr). exists r. split; [reflexivity|]. apply in_or_app. auto.
Qed.
Lemma NoDup_app {A} (a b : list A) : NoDup (a ++ b) -> NoDup a /\ NoDup b /\ (forall x, In x a -> ~ In x b).
Proof.
  induction a as [|x a IH]; cbn; intros H; [repeat split; auto; constructor|]. inversion H as [|? ? Hn Hd]; subst. destruct (IH Hd) as (H1 & H2 & H3).
  repeat split; [constructor; [intros Hx; apply Hn, in_or_app; auto|exact H1]|exact H2|].
  intros y [<-|Hy]; [intros Hb; apply Hn, in_or_app; auto|apply H3, Hy].
Qed.
Lemma seg_owned k g r : forall s : seg, NoDup (flat_map snd s) ->
  owned (seg_own k s (map (fun p => g (elt_of (fst p))) s)) (seg_vals s (map (fun p => g (elt_of (fst p))) s)) (k + r) = out_for g r s.
Proof.
  unfold out_for. induction s as [|[n rs] s IH]; intros H; [reflexivity|]. cbn [flat_map snd] in H. apply NoDup_app in H as (H1 & H2 & H3). specialize (IH H2).
  unfold seg_own, seg_vals in *. cbn [map combine new_own new_vals fst snd view].
  destruct (snd (g (elt_of n))) as [v|] eqn:Eo.
  - rewrite owned_app by (rewrite !map_length; reflexivity). rewrite IH, owned_block by exact H1. destruct (existsb (Z.eqb r) rs) eqn:Ex; [|reflexivity].
    rewrite Eo. rewrite view_none; [reflexivity|]. apply H3, existsb_in, Ex.
  - rewrite IH. destruct (existsb (Z.eqb r) rs) eqn:Ex; [|reflexivity]. rewrite Eo. rewrite view_none; [reflexivity|]. apply H3, existsb_in, Ex.
Qed.
Lemma seg_vals_len g : forall s : seg, zlen (seg_vals s (map (fun p => g (elt_of (fst p))) s)) <= zlen (flat_map snd s).
Proof.
  unfold seg_vals. induction s as [|[n rs] s IH]; cbn; [reflexivity|]. rewrite zlen_app. pose proof (zlen_nonneg rs).
  destruct (snd (g (elt_of n))); [|lia]. rewrite zlen_app. unfold zlen at 1. rewrite map_length. fold (zlen rs). lia.
Qed.

(** The number of tuples that a loop over a level adds. *)
Definition weight (g : elt -> elt * option wval) (s : seg) : Z := zlen (seg_vals s (map (fun p => g (elt_of (fst p))) s)).
Lemma weight_nonneg g s : 0 <= weight g s.
Proof. apply zlen_nonneg. Qed.
Lemma weight_two g1 g2 : (forall e, snd (g1 e) <> None -> snd (g2 (mkElt (q_state e) (q_count (fst (g1 e))) (q_ms (fst (g1 e))))) = None) ->
  forall s, weight g1 s + weight g2 (mapseg g1 s) <= zlen (flat_map snd s).
Proof.
  intros H. unfold weight, seg_vals. induction s as [|[n rs] s IH]; [cbn; lia|]. cbn [flat_map snd mapseg map combine new_vals fst]. rewrite zlen_app. pose proof (zlen_nonneg rs) as H0.
  specialize (H (elt_of n)). rewrite elt_of_set. change (q_state (elt_of n)) with (t_state n) in H. destruct (snd (g1 (elt_of n))) as [v|].
  - rewrite H by discriminate. rewrite zlen_app. unfold zlen at 1. rewrite map_length. fold (zlen rs). unfold mapseg in IH. lia.
  - destruct (snd (g2 _)) as [v|]; [|unfold mapseg in IH; lia]. rewrite zlen_app. unfold mapseg in IH. unfold zlen at 2. rewrite map_length. fold (zlen rs). lia.
Qed.
Lemma seg_vals_none g : (forall e, snd (g e) = None) -> forall s : seg, seg_vals s (map (fun p => g (elt_of (fst p))) s) = [].
Proof. intros H. unfold seg_vals. induction s as [|[n rs] s IH]; cbn; [reflexivity|]. rewrite H. exact IH. Qed.
Lemma weight_none g s : (forall e, snd (g e) = None) -> weight g s = 0.
Proof. intros H. unfold weight. rewrite seg_vals_none by exact H. reflexivity. Qed.
Lemma Forall2_len {A B} (P : A -> B -> Prop) a b : Forall2 P a b -> List.length a = List.length b.
Proof. induction 1; cbn; congruence. Qed.

Section Levels.
  (** The number of the start states, and the states. *)
  Variable R : nat.
  Variable st : Z -> Z.

  Definition full (s : seg) : Prop := Permutation (flat_map snd s) (iota R) /\ Forall (fun p => snd p <> []) s.
  Definition ends_at (np nr : Z) (s : seg) : Prop := exists s0 n rs b, s = s0 ++ [(n, rs)] /\ t_pend n = Some (np - 1) /\ t_root n = Some (b, nr - 1).
  (** The lowest level: one node for every start state. *)
  Definition base_ok (s : seg) : Prop := map (fun p => (t_state (fst p), t_pend (fst p), t_root (fst p), snd p)) s = map (fun r => (st r, Some (-1), Some (0, -1), [r])) (iota R).
  Fixpoint levels (L : list seg) (np : Z) (rp : list Z) : Prop :=
    match L with
    | [] => False
    | s :: L' =>
        full s /\ seg_ok R rp (zlen (fl L')) s /\ ends_at np (zlen rp) s /\
        match L' with
        | [] => np = 0 /\ rp = [] /\ base_ok s
        | _ => exists np' rp', rp = rp' ++ flat_map snd s /\ np' + zlen (hd [] L') = np /\ levels L' np' rp' /\ Forall (fun p => rootp (fst p) = false) s
        end
    end.

  Lemma iota_zlen : zlen (iota R) = Z.of_nat R.
  Proof. unfold zlen. rewrite iota_length. reflexivity. Qed.
  Lemma perm_zlen {A} (a b : list A) : Permutation a b -> zlen a = zlen b.
  Proof. intros H. unfold zlen. rewrite (Permutation_length H). reflexivity. Qed.
  Lemma full_len s : full s -> zlen s <= Z.of_nat R.
  Proof.
    intros [Hp Hn]. rewrite <- iota_zlen, <- (perm_zlen _ _ Hp). clear Hp. induction s as [|[n rs] s IH]; [cbn; lia|]. apply Forall_cons_iff in Hn as [H1 H2].
    cbn [flat_map snd]. rewrite zlen_cons, zlen_app. specialize (IH H2). cbn in H1. destruct rs; [congruence|]. rewrite zlen_cons. pose proof (zlen_nonneg rs). lia.
  Qed.
  Lemma iota_nodup : NoDup (iota R).
  Proof. unfold iota. apply FinFun.Injective_map_NoDup; [intros a b H; lia|apply seq_NoDup]. Qed.
  Lemma full_nodup s : full s -> NoDup (flat_map snd s).
  Proof. intros [H _]. eapply Permutation_NoDup; [symmetry; exact H|apply iota_nodup]. Qed.
  Lemma full_in s r : full s -> (In r (flat_map snd s) <-> 0 <= r < Z.of_nat R).
  Proof. intros [H _]. rewrite <- in_iota. split; apply Permutation_in; [exact H|symmetry; exact H]. Qed.
  Lemma full_view s r : full s -> 0 <= r < Z.of_nat R -> exists n, view r s = Some n.
  Proof. intros H Hr. apply view_some, (full_in s r H), Hr. Qed.

  Lemma full_mapseg g s : full s -> full (mapseg g s).
  Proof.
    intros [H1 H2]. split; [rewrite mapseg_roots; exact H1|]. unfold mapseg. rewrite Forall_map. exact H2.
  Qed.
  Lemma ends_mapseg g np nr s : ends_at np nr s -> ends_at np nr (mapseg g s).
  Proof.
    intros (s0 & n & rs & b & -> & H1 & H2). unfold mapseg. rewrite map_app. cbn [map fst snd]. eexists _, _, _, b. split; [reflexivity|]. split; [exact H1|exact H2].
  Qed.
  Lemma levels_top g s L np rp : levels (s :: L) np rp -> levels (mapseg g s :: L) np rp.
  Proof.
    cbn [levels]. intros (H1 & H2 & H3 & H4). split; [apply full_mapseg, H1|]. split; [apply seg_ok_mapseg, H2|]. split; [apply ends_mapseg, H3|].
    destruct L as [|s2 L].
    - destruct H4 as (H4 & H5 & H6). split; [exact H4|]. split; [exact H5|]. unfold base_ok, mapseg in *. rewrite map_map. exact H6.
    - rewrite mapseg_roots. destruct H4 as (np' & rp' & H4 & H5 & H6 & H7). exists np', rp'. repeat (split; [assumption|]).
      unfold mapseg. rewrite Forall_map. exact H7.
  Qed.
  Lemma levels_second g t s L np rp : levels (t :: s :: L) np rp -> levels (t :: mapseg g s :: L) np rp.
  Proof.
    intros (H1 & H2 & H3 & np' & rp' & H4 & H5 & H6 & H7). cbn [levels]. split; [exact H1|].
    split. { rewrite fl_zlen, mapseg_zlen, <- fl_zlen. exact H2. }
    split; [exact H3|]. exists np', rp'. split; [exact H4|]. split; [cbn [hd] in *; rewrite mapseg_zlen; exact H5|]. split; [apply levels_top, H6|exact H7].
  Qed.
  Lemma levels_tail t s L np rp : levels (t :: s :: L) np rp -> exists np' rp', rp = rp' ++ flat_map snd t /\ levels (s :: L) np' rp'.
  Proof. intros (_ & _ & _ & np' & rp' & H1 & _ & H2 & _). eauto. Qed.
  Lemma levels_sizes : forall L np rp, levels L np rp -> zlen (fl L) <= Z.of_nat R * zlen L /\ 0 <= np <= Z.of_nat R * (zlen L - 1) /\ zlen rp = Z.of_nat R * (zlen L - 1).
  Proof.
    induction L as [|s L IH]; intros np rp H; [contradiction|]. destruct H as (H1 & H2 & H3 & H4). pose proof (full_len _ H1) as Hs.
    rewrite fl_zlen, zlen_cons. destruct L as [|s2 L].
    - destruct H4 as (-> & -> & _). cbn. pose proof (zlen_nonneg s). lia.
    - destruct H4 as (np' & rp' & -> & H5 & H6 & _). destruct (IH _ _ H6) as (I1 & I2 & I3). rewrite zlen_app, I3.
      destruct H1 as [Hp _]. rewrite (perm_zlen _ _ Hp), iota_zlen. destruct H6 as (H7 & _). pose proof (full_len _ H7). cbn [hd] in H5. pose proof (zlen_nonneg s2). nia.
  Qed.
  Lemma levels_roots L np rp : levels L np rp -> (R <= List.length (fl L))%nat.
  Proof.
    revert np rp. induction L as [|s L IH]; intros np rp H; [contradiction|]. destruct H as (H1 & H2 & H3 & H4). cbn [fl]. rewrite app_length.
    destruct L as [|s2 L].
    - destruct H4 as (_ & _ & H6). apply (f_equal (@List.length _)) in H6. rewrite !map_length, iota_length in *. lia.
    - destruct H4 as (np' & rp' & _ & _ & H6 & _). specialize (IH _ _ H6). lia.
  Qed.

  (** The stacks that consist of the given levels. *)
  Definition QS (own : list Z) (kid : Z) (L : list seg) (np : Z) (rp : list Z) : qstacks :=
    mkQs (put (tups_of own kid R) (fl L)) (Some np) (Some rp) (itm (tl L)).

  (** What a loop over a level adds to the chains. *)
  Record added (own : list Z) (tw : list wtuple) (kid : Z) (o : Z -> list (Z * wval)) (own' : list Z) (tw' : list wtuple) : Prop := mkAdded {
    ad_ch  : chst own' kid R tw';
    ad_own : forall r, 0 <= r < Z.of_nat R -> owned own' (vals tw') (kid + r) = owned own (vals tw) (kid + r) ++ o r;
    ad_old : exists new vs, own' = own ++ new /\ vals tw' = vals tw ++ vs /\ List.length new = List.length vs /\ Forall (fun x => kid <= x) new;
    ad_len : zlen tw' <= zlen tw + Z.of_nat R
  }.
  Lemma added_nil own tw kid : chst own kid R tw -> added own tw kid (fun _ => []) own tw.
  Proof.
    intros H. split; auto; try lia. { intros r _. rewrite app_nil_r. reflexivity. }
    exists [], []. rewrite !app_nil_r. repeat split; auto.
  Qed.

  Lemma loop_nodes f g A C s own kid tw q rp : k_rp q = Some rp ->
    chst own kid R tw -> (R <= List.length (A ++ map fst s ++ C))%nat -> seg_ok R rp (zlen A) s -> full s ->
    Forall (fun p => app1 f (rootp (fst p)) (elt_of (fst p)) = Ok (g (elt_of (fst p)))) s ->
    zlen tw + Z.of_nat R <= MAX_TUPLE_LIST ->
    exists own' tw', each f (zlen A, zlen A + zlen s - 1) (with_nodes q (put (tups_of own kid R) (A ++ map fst s ++ C)), tw) =
      Ok (with_nodes q (put (tups_of own' kid R) (A ++ map fst (mapseg g s) ++ C)), tw') /\
      added own tw kid (fun r => out_for g r s) own' tw' /\ zlen tw' = zlen tw + weight g s.
  Proof.
    intros Hq Hc Hl Hs Hfull Hf Hm. unfold each. cbn [fst snd].
    destruct (loop_seg f kid R rp q Hq C s _ own tw A Hc Hl Hs (outs_ok f g s Hf)) as (tw' & E & C' & V).
    { destruct Hfull as [Hp _]. rewrite (perm_zlen _ _ Hp), iota_zlen. exact Hm. }
    eexists _, tw'. split; [rewrite E, res_seg_map; reflexivity|].
    pose proof (seg_own_length kid g s) as Hlen.
    split.
    2:{ apply (f_equal (@zlen _)) in V. rewrite zlen_app, !vals_zlen in V. exact V. }
    split; [exact C'| | |].
    - intros r _. rewrite V. rewrite owned_app.
      2:{ destruct Hc as [[Hc _] _]. rewrite Hc. unfold vals. rewrite map_length. reflexivity. }
      f_equal. apply seg_owned, full_nodup, Hfull.
    - eexists _, _. split; [reflexivity|]. split; [exact V|]. split; [exact Hlen|].
      apply Forall_forall. intros x Hx. apply seg_own_in in Hx as (r & -> & Hr). apply (full_in s r Hfull) in Hr. lia.
    - apply (f_equal (@zlen _)) in V. rewrite zlen_app, !vals_zlen in V. rewrite V. pose proof (seg_vals_len g s) as H. destruct Hfull as [Hp _].
      rewrite (perm_zlen _ _ Hp), iota_zlen in H. lia.
  Qed.

  (** The loop over the top level. *)
  Lemma loop_top f g s L np rp own kid tw : levels (s :: L) np rp -> chst own kid R tw ->
    Forall (fun p => app1 f (rootp (fst p)) (elt_of (fst p)) = Ok (g (elt_of (fst p)))) s ->
    zlen tw + Z.of_nat R <= MAX_TUPLE_LIST ->
    exists own' tw', each f (rng (s :: L)) (QS own kid (s :: L) np rp, tw) = Ok (QS own' kid (mapseg g s :: L) np rp, tw') /\
      added own tw kid (fun r => out_for g r s) own' tw' /\ zlen tw' = zlen tw + weight g s.
  Proof.
    intros HL Hc Hf Hm. pose proof (levels_roots _ _ _ HL) as HR. destruct HL as (H1 & H2 & _).
    destruct (loop_nodes f g (fl L) [] s own kid tw (QS own kid (s :: L) np rp) rp eq_refl Hc) as (own' & tw' & E & Ha); auto.
    { rewrite app_nil_r. exact HR. }
    exists own', tw'. split; [|exact Ha]. rewrite !app_nil_r in E. exact E.
  Qed.
  (** ... and over the level below it. *)
  Lemma loop_second f g t s L np rp own kid tw : levels (t :: s :: L) np rp -> chst own kid R tw ->
    Forall (fun p => app1 f (rootp (fst p)) (elt_of (fst p)) = Ok (g (elt_of (fst p)))) s ->
    zlen tw + Z.of_nat R <= MAX_TUPLE_LIST ->
    exists own' tw', each f (rng (s :: L)) (QS own kid (t :: s :: L) np rp, tw) = Ok (QS own' kid (t :: mapseg g s :: L) np rp, tw') /\
      added own tw kid (fun r => out_for g r s) own' tw' /\ zlen tw' = zlen tw + weight g s.
  Proof.
    intros HL Hc Hf Hm. pose proof (levels_roots _ _ _ HL) as HR. destruct (levels_tail _ _ _ _ _ HL) as (np' & rp' & -> & H1 & H2 & _).
    destruct (loop_nodes f g (fl L) (map fst t) s own kid tw (QS own kid (t :: s :: L) np (rp' ++ flat_map snd t)) _ eq_refl Hc) as (own' & tw' & E & Ha); auto.
    { rewrite app_assoc. exact HR. }
    { apply seg_ok_ext, H2. }
    exists own', tw'. split; [|exact Ha]. rewrite !app_assoc in E. unfold QS in *. cbn [fl tl itm rng] in *. rewrite mapseg_zlen. exact E.
  Qed.

  (** * Pop *)
  Lemma pop_ok t s L np rp own kid : levels (t :: s :: L) np rp ->
    exists np' rp', queryStacksPop (QS own kid (t :: s :: L) np rp) = Ok (QS own kid (s :: L) np' rp', rng (s :: L)) /\ levels (s :: L) np' rp'.
  Proof.
    intros HL. pose proof HL as (_ & _ & _ & np' & rp' & -> & _ & H2 & _). exists np', rp'. split; [|exact H2].
    pose proof (levels_roots _ _ _ H2) as HR. destruct H2 as (_ & _ & (s0 & n & rs & b & -> & Hp & Hr) & _).
    unfold queryStacksPop. cbn [QS k_item tl itm]. cbn [rng snd]. rewrite zlen_snoc.
    assert (Hn : nth_error (fl (t :: (s0 ++ [(n, rs)]) :: L)) (Z.to_nat (zlen (fl L) + zlen s0)) = Some n).
    { cbn [fl]. rewrite map_app. cbn [map fst]. replace (zlen (fl L) + zlen s0) with (zlen (fl L ++ map fst s0)).
      - rewrite app_assoc, <- (app_assoc _ [n]). cbn [app]. apply nth_mid.
      - rewrite zlen_app. unfold zlen. rewrite map_length. lia. }
    destruct (put_nth (tups_of own kid R) _ _ _ Hn) as (m & Hm & (_ & _ & _ & E4 & E5) & _). cbn [k_nodes].
    pose proof (zlen_nonneg (fl L)). pose proof (zlen_nonneg s0).
    replace (zlen (fl L) + (zlen s0 + 1) - 1) with (zlen (fl L) + zlen s0) by lia. rewrite (zread_some _ _ m) by (lia || exact Hm). cbn [bind].
    rewrite E4, E5, Hp, Hr. cbn [k_rp QS]. f_equal. f_equal.
    - unfold QS. cbn [tl]. f_equal.
      + change (fl (t :: (s0 ++ [(n, rs)]) :: L)) with (fl ((s0 ++ [(n, rs)]) :: L) ++ map fst t).
        rewrite put_app_l by (rewrite tups_length; exact HR). replace (Z.to_nat (zlen (fl L) + zlen s0 + 1)) with (List.length (put (tups_of own kid R) (fl ((s0 ++ [(n, rs)]) :: L)))).
        2:{ rewrite put_length. cbn [fl]. rewrite app_length, map_length, app_length. unfold zlen. cbn. lia. }
        cbn [k_nodes]. rewrite firstn_app, Nat.sub_diag, firstn_all, firstn_O, app_nil_r. reflexivity.
      + f_equal. lia.
      + f_equal. replace (Z.to_nat (zlen rp' - 1 + 1)) with (List.length rp') by (unfold zlen; lia). rewrite firstn_app, Nat.sub_diag, firstn_all, firstn_O, app_nil_r. reflexivity.
  Qed.

  (** * Push *)
  (** The targets that a level leads to: every node has one successor. *)
  Definition targets (g : elt -> Z) (s : seg) (acc : list (Z * (Z * list Z))) : list (Z * (Z * list Z)) :=
    fold_left (fun acc p => add_target acc (g (elt_of (fst p))) (snd p)) s acc.
  Definition acc_roots (acc : list (Z * (Z * list Z))) : list Z := flat_map (fun a => snd (snd a)) acc.
  Definition acc_np (acc : list (Z * (Z * list Z))) : Z := fold_right (fun a n => fst (snd a) + n) 0 acc.

  Lemma add_target_roots s rs : forall acc, Permutation (acc_roots (add_target acc s rs)) (acc_roots acc ++ rs).
  Proof.
    induction acc as [|[s' [p rs']] acc IH]; cbn; [rewrite app_nil_r; reflexivity|]. destruct (s' =? s); cbn.
    - rewrite <- !app_assoc. apply Permutation_app_head, Permutation_app_comm.
    - rewrite <- app_assoc. apply Permutation_app_head, IH.
  Qed.
  Lemma add_target_np s rs : forall acc, acc_np (add_target acc s rs) = acc_np acc + 1.
  Proof. induction acc as [|[s' [p rs']] acc IH]; cbn; [reflexivity|]. destruct (s' =? s); cbn; [lia|]. fold (acc_np acc). unfold acc_np in *. rewrite IH. lia. Qed.
  Lemma add_target_in s rs r : forall acc t, (exists x, In (t, x) (add_target acc s rs) /\ In r (snd x)) <->
    ((exists x, In (t, x) acc /\ In r (snd x)) \/ (t = s /\ In r rs)).
  Proof.
    induction acc as [|[s' [p rs']] acc IH]; intros t; cbn [add_target].
    - split.
      + intros (x & [E|[]] & H). injection E as <- <-. right. auto.
      + intros [(x & [] & _)|[-> H]]. eexists. split; [left; reflexivity|exact H].
    - destruct (Z.eqb_spec s' s) as [->|Hne].
      + split.
        * intros (x & [E|Hi] & H).
          -- injection E as <- <-. cbn in H. apply in_app_or in H as [H|H]; [left|right; auto]. eexists. split; [left; reflexivity|exact H].
          -- left. exists x. split; [right; exact Hi|exact H].
        * intros [(x & [E|Hi] & H)|[-> H]].
          -- injection E as <- <-. eexists. split; [left; reflexivity|]. cbn in *. apply in_or_app. auto.
          -- exists x. split; [right; exact Hi|exact H].
          -- eexists. split; [left; reflexivity|]. cbn. apply in_or_app. auto.
      + specialize (IH t). split.
        * intros (x & [E|Hi] & H); [left; exists x; split; [left; exact E|exact H]|].
          destruct (proj1 IH (ex_intro _ x (conj Hi H))) as [(y & Hy & H')|H']; [left; exists y; split; [right; exact Hy|exact H']|right; exact H'].
        * intros [(x & [E|Hi] & H)|H]; [exists x; split; [left; exact E|exact H]| |].
          -- destruct (proj2 IH (or_introl (ex_intro _ x (conj Hi H)))) as (y & Hy & H'). exists y. split; [right; exact Hy|exact H'].
          -- destruct (proj2 IH (or_intror H)) as (y & Hy & H'). exists y. split; [right; exact Hy|exact H'].
  Qed.
  Lemma add_target_pos s rs : rs <> [] -> forall acc, Forall (fun a => snd (snd a) <> [] /\ 1 <= fst (snd a)) acc -> Forall (fun a : Z * (Z * list Z) => snd (snd a) <> [] /\ 1 <= fst (snd a)) (add_target acc s rs).
  Proof.
    intros Hr. induction acc as [|[s' [p rs']] acc IH]; intros H; cbn; [constructor; [cbn; split; [exact Hr|lia]|constructor]|].
    apply Forall_cons_iff in H as [H1 H2]. cbn in H1. destruct (s' =? s); constructor; cbn; auto. split; [|lia]. destruct rs'; [tauto|discriminate].
  Qed.

  Lemma targets_cons g n rs s acc : targets g ((n, rs) :: s) acc = targets g s (add_target acc (g (elt_of n)) rs).
  Proof. reflexivity. Qed.
  Lemma targets_roots g : forall s acc, Permutation (acc_roots (targets g s acc)) (acc_roots acc ++ flat_map snd s).
  Proof.
    induction s as [|[n rs] s IH]; intros acc; [cbn; rewrite app_nil_r; reflexivity|].
    cbn [flat_map snd]. rewrite targets_cons, IH, add_target_roots, app_assoc. reflexivity.
  Qed.
  Lemma targets_np g : forall s acc, acc_np (targets g s acc) = acc_np acc + zlen s.
  Proof. induction s as [|[n rs] s IH]; intros acc; [cbn [targets fold_left]; rewrite zlen_nil; lia|]. rewrite targets_cons, IH, add_target_np, zlen_cons. lia. Qed.
  Lemma targets_pos g : forall s acc, Forall (fun p : tnode * list Z => snd p <> []) s -> Forall (fun a => snd (snd a) <> [] /\ 1 <= fst (snd a)) acc ->
    Forall (fun a : Z * (Z * list Z) => snd (snd a) <> [] /\ 1 <= fst (snd a)) (targets g s acc).
  Proof.
    induction s as [|[n rs] s IH]; intros acc Hs Ha; cbn; [exact Ha|]. apply Forall_cons_iff in Hs as [H1 H2]. apply IH; [exact H2|]. apply add_target_pos; [exact H1|exact Ha].
  Qed.
  Lemma targets_in g r : forall s acc t, (exists x, In (t, x) (targets g s acc) /\ In r (snd x)) <->
    ((exists x, In (t, x) acc /\ In r (snd x)) \/ exists n rs, In (n, rs) s /\ In r rs /\ t = g (elt_of n)).
  Proof.
    induction s as [|[n rs] s IH]; intros acc t.
    - cbn. split; [auto|]. intros [H|(n & rs & [] & _)]. exact H.
    - rewrite targets_cons, IH, add_target_in. cbn [fst snd]. split.
      + intros [[H|[-> H]]|(n' & rs' & H1 & H2 & H3)]; [auto| |].
        * right. exists n, rs. split; [left; reflexivity|auto].
        * right. exists n', rs'. split; [right; exact H1|auto].
      + intros [H|(n' & rs' & [E|H1] & H2 & H3)]; [auto| |].
        * injection E as <- <-. auto.
        * right. eauto.
  Qed.

  (** The new level. *)
  Definition new_seg (acc : list (Z * (Z * list Z))) (np nr : Z) : seg := combine (new_nodes acc np nr) (map (fun a => snd (snd a)) acc).
  Lemma new_nodes_length : forall acc np nr, List.length (new_nodes acc np nr) = List.length acc.
  Proof. induction acc as [|[s [p rs]] acc IH]; intros np nr; cbn; congruence. Qed.
  Lemma new_seg_fst acc np nr : map fst (new_seg acc np nr) = new_nodes acc np nr.
  Proof.
    unfold new_seg. revert np nr. induction acc as [|[s [p rs]] acc IH]; intros np nr; cbn; [reflexivity|]. f_equal. apply IH.
  Qed.
  Lemma new_seg_roots : forall acc np nr, flat_map snd (new_seg acc np nr) = acc_roots acc.
  Proof. induction acc as [|[s [p rs]] acc IH]; intros np nr; cbn; [reflexivity|]. f_equal. apply IH. Qed.
  Lemma new_seg_ne : forall acc np nr, Forall (fun a => snd (snd a) <> [] /\ 1 <= fst (snd a)) acc -> Forall (fun p => snd p <> []) (new_seg acc np nr).
  Proof.
    induction acc as [|[s [p rs]] acc IH]; intros np nr H; cbn; [constructor|]. apply Forall_cons_iff in H as [[H1 _] H2]. constructor; [exact H1|]. apply IH, H2.
  Qed.
  Lemma new_seg_flag : forall acc np nr, 0 <= nr -> Forall (fun a => snd (snd a) <> [] /\ 1 <= fst (snd a)) acc -> Forall (fun p => rootp (fst p) = false) (new_seg acc np nr).
  Proof.
    induction acc as [|[s [p rs]] acc IH]; intros np nr H0 H; cbn [new_seg new_nodes map combine]; [constructor|]. apply Forall_cons_iff in H as [[H1 _] H2]. cbn [fst snd] in *.
    pose proof (zlen_nonneg rs). constructor; [|apply IH; [lia|exact H2]]. unfold rootp. cbn [fst t_root]. destruct rs; [congruence|]. rewrite zlen_cons in *. pose proof (zlen_nonneg rs). lia.
  Qed.
  Lemma new_seg_states (P : Z -> Prop) : forall acc np nr, Forall (fun a => P (fst a)) acc -> Forall (fun p => exists st, P st /\ elt_of (fst p) = mkElt st 0 MInv) (new_seg acc np nr).
  Proof.
    induction acc as [|[s [p rs]] acc IH]; intros np nr H; cbn [new_seg new_nodes map combine]; [constructor|]. apply Forall_cons_iff in H as [H1 H2].
    constructor; [exists s; split; [exact H1|reflexivity]|apply IH, H2].
  Qed.
  Lemma add_target_state (P : Z -> Prop) s rs : P s -> forall acc, Forall (fun a => P (fst a)) acc -> Forall (fun a : Z * (Z * list Z) => P (fst a)) (add_target acc s rs).
  Proof.
    intros Hs. induction acc as [|[s' [p rs']] acc IH]; intros H; cbn; [constructor; [exact Hs|constructor]|]. apply Forall_cons_iff in H as [H1 H2].
    destruct (s' =? s); constructor; auto.
  Qed.
  Lemma targets_state (P : Z -> Prop) g : forall s acc, Forall (fun p => P (g (elt_of (fst p)))) s -> Forall (fun a => P (fst a)) acc -> Forall (fun a => P (fst a)) (targets g s acc).
  Proof.
    induction s as [|[n rs] s IH]; intros acc Hs Ha; [exact Ha|]. apply Forall_cons_iff in Hs as [H1 H2]. rewrite targets_cons. apply IH; [exact H2|]. apply add_target_state; [exact H1|exact Ha].
  Qed.
  Lemma new_seg_ok : forall acc np pre post i, Forall (fun a => snd (snd a) <> [] /\ 1 <= fst (snd a)) acc ->
    Forall (fun r => 0 <= r < Z.of_nat R) (acc_roots acc) -> seg_ok R (pre ++ acc_roots acc ++ post) i (new_seg acc np (zlen pre)).
  Proof.
    induction acc as [|[s [p rs]] acc IH]; intros np pre post i H Hr; cbn [new_seg new_nodes map combine seg_ok]; [exact I|].
    apply Forall_cons_iff in H as [[H1 _] H2]. cbn [fst snd] in *. cbn [acc_roots flat_map snd] in *. apply Forall_app in Hr as [Hr1 Hr2]. split; [|split; [exact Hr1|]].
    - exists (zlen pre), (zlen pre + zlen rs - 1). split; [reflexivity|]. destruct rs as [|r rs]; [congruence|]. rewrite zlen_cons. pose proof (zlen_nonneg rs). pose proof (zlen_nonneg pre).
      replace (zlen pre + (zlen rs + 1) - 1 =? -1) with false by lia. rewrite <- (zlen_cons r), <- app_assoc. apply mapM_slice.
    - specialize (IH (np + p) (pre ++ rs) post (i + 1) H2 Hr2). rewrite zlen_app in IH. rewrite <- !app_assoc in *. exact IH.
  Qed.
  Lemma new_seg_ends : forall acc np nr, acc <> [] -> ends_at (np + acc_np acc) (nr + zlen (acc_roots acc)) (new_seg acc np nr).
  Proof.
    induction acc as [|[s [p rs]] acc IH]; intros np nr H; [congruence|]. destruct acc as [|a acc].
    - exists [], (mkNode s 0 MInv (Some (np + p - 1)) (Some (nr, nr + zlen rs - 1)) None), rs, nr. cbn. split; [reflexivity|]. rewrite app_nil_r. split; do 2 f_equal; lia.
    - destruct (IH (np + p) (nr + zlen rs) ltac:(discriminate)) as (s0 & n & rs' & b & E & H1 & H2).
      exists ((mkNode s 0 MInv (Some (np + p - 1)) (Some (nr, nr + zlen rs - 1)) None, rs) :: s0), n, rs', b. split; [unfold new_seg in *; cbn [new_nodes map combine]; cbn [new_nodes map combine] in E; rewrite E; reflexivity|].
      cbn [acc_np fold_right fst snd acc_roots flat_map] in *. fold (acc_np acc) in *. fold (acc_roots acc) in *. rewrite H1, H2. rewrite !zlen_app in *. split; f_equal; [lia|]. f_equal; lia.
  Qed.
  Lemma new_seg_view g s np nr r n : full s -> view r s = Some n ->
    exists n', view r (new_seg (targets g s []) np nr) = Some n' /\ elt_of n' = mkElt (g (elt_of n)) 0 MInv.
  Proof.
    intros Hf Hv. destruct (view_in _ _ _ Hv) as (rs & Hi & Hr).
    assert (Hn : NoDup (acc_roots (targets g s []))).
    { eapply Permutation_NoDup; [symmetry; apply targets_roots|]. cbn. apply full_nodup, Hf. }
    assert (Ht : exists x, In (g (elt_of n), x) (targets g s []) /\ In r (snd x)).
    { apply targets_in. right. exists n, rs. auto. }
    revert Hn Ht. generalize (targets g s []) (g (elt_of n)). clear. intros acc st. revert np nr. induction acc as [|[t [p rs]] acc IH]; intros np nr Hn (x & Hi & Hr); [destruct Hi|].
    cbn [new_seg new_nodes map combine view snd]. cbn [acc_roots flat_map snd] in Hn. apply NoDup_app in Hn as (_ & Hn2 & Hn3).
    destruct Hi as [E|Hi].
    - injection E as -> <-. cbn [snd] in Hr. rewrite (proj2 (existsb_in r rs) Hr). eexists. split; reflexivity.
    - destruct (existsb (Z.eqb r) rs) eqn:Ex; [|apply (IH _ _ Hn2 (ex_intro _ x (conj Hi Hr)))].
      exfalso. apply existsb_in in Ex. apply (Hn3 r Ex). apply in_flat_map. exists (st, x). auto.
  Qed.

  Lemma push_targets_ok d inp q g : forall s A C acc rp, k_rp q = Some rp -> k_nodes q = A ++ C ->
    seg_ok R rp (zlen A) s ->
    Forall2 same (firstn (List.length s) C) (map fst s) ->
    Forall (fun p => next_at d (rootp (fst p)) (t_state (fst p)) (t_count (fst p)) inp = Ok (g (elt_of (fst p)))) s ->
    foldM (fun acc i =>
             n <- zread (k_nodes q) i ;;
             root <- is_root n ;;
             s <- next_at d root (t_state n) (t_count n) inp ;;
             rs <- roots_of q i n ;;
             Ok (add_target acc s rs)) (zseq (zlen A) (zlen A + zlen s - 1)) acc = Ok (targets g s acc).
  Proof.
    induction s as [|[n rs] s IH]; intros A C acc rp Hq Hn Hs Hf Hg.
    - rewrite zlen_nil, Z.add_0_r, zseq_nil. reflexivity.
    - cbn [List.length map fst] in Hf. destruct C as [|m C]; [inversion Hf|]. cbn [firstn] in Hf. inversion Hf as [|? ? ? ? (S1 & S2 & S3 & S4 & S5) Hf']; subst.
      destruct Hs as ((b & e & Hr1 & Hr2) & _ & Hs). apply Forall_cons_iff in Hg as [Hg1 Hg2]. cbn [fst] in Hg1.
      pose proof (zlen_nonneg s). rewrite zlen_cons, zseq_cons by lia. cbn [foldM].
      rewrite Hn, (zread_some _ _ m (zlen_nonneg A) (nth_mid A m C)). cbn [bind]. unfold is_root. rewrite S5, Hr1. cbn [known bind].
      unfold rootp in Hg1. rewrite Hr1 in Hg1. rewrite S1, S2, Hg1. cbn [bind].
      assert (Er : roots_of q (zlen A) m = Ok rs).
      { unfold roots_of. rewrite S5, Hr1. cbn [known bind]. destruct (e =? -1); [subst rs; reflexivity|]. rewrite Hq. exact Hr2. }
      rewrite Er. cbn [bind]. replace (zlen A + (zlen s + 1) - 1) with (zlen (A ++ [m]) + zlen s - 1) by (rewrite zlen_snoc; lia).
      replace (zlen A + 1) with (zlen (A ++ [m])) by apply zlen_snoc. rewrite <- Hn. rewrite (IH (A ++ [m]) C _ rp Hq); [reflexivity| | | |]; auto.
      + rewrite <- app_assoc. exact Hn.
      + rewrite zlen_snoc. exact Hs.
  Qed.

  Lemma put_same : forall ts ns, Forall2 same (put ts ns) ns.
  Proof.
    assert (G : forall ns, Forall2 same ns ns) by (induction ns; constructor; auto using same_refl).
    induction ts as [|t ts IH]; intros [|n ns]; cbn; auto. constructor; [repeat split|auto].
  Qed.

  Lemma push_ok d inp g s L np rp own kid : levels (s :: L) np rp -> zlen L < Z.of_nat MAX_STACK -> Z.of_nat R * (zlen L + 2) <= MAX_NODE -> (0 < R)%nat ->
    Forall (fun p => next_at d (rootp (fst p)) (t_state (fst p)) (t_count (fst p)) inp = Ok (g (elt_of (fst p)))) s ->
    exists s' np' rp', queryStacksPush d (QS own kid (s :: L) np rp) (rng (s :: L)) inp = Ok (QS own kid (s' :: s :: L) np' rp', rng (s' :: s :: L)) /\
      levels (s' :: s :: L) np' rp' /\
      (forall r n, view r s = Some n -> exists n', view r s' = Some n' /\ elt_of n' = mkElt (g (elt_of n)) 0 MInv) /\
      Forall (fun p => exists p0, In p0 s /\ elt_of (fst p) = mkElt (g (elt_of (fst p0))) 0 MInv) s'.
  Proof.
    intros HL Hi Hm HR Hg. pose proof (levels_roots _ _ _ HL) as Hroots. pose proof (levels_sizes _ _ _ HL) as (Z1 & Z2 & Z3). rewrite zlen_cons in *.
    pose proof HL as (Hf & Hs & _ & _).
    set (acc := targets g s []). set (s' := new_seg acc np (zlen rp)).
    assert (Hperm : Permutation (acc_roots acc) (iota R)).
    { etransitivity; [apply targets_roots|]. cbn. apply Hf. }
    assert (Hpos : Forall (fun a => snd (snd a) <> [] /\ 1 <= fst (snd a)) acc).
    { apply targets_pos; [apply Hf|constructor]. }
    assert (Hacc : acc <> []).
    { intros E. rewrite E in Hperm. apply Permutation_length in Hperm. rewrite iota_length in Hperm. cbn in Hperm. lia. }
    assert (Hfull : full s').
    { split; [unfold s'; rewrite new_seg_roots; exact Hperm|apply new_seg_ne, Hpos]. }
    assert (HL' : levels (s' :: s :: L) (np + zlen s) (rp ++ acc_roots acc)).
    { split; [exact Hfull|]. split; [|split].
      - pose proof (new_seg_ok acc np rp [] (zlen (fl (s :: L))) Hpos) as H. rewrite app_nil_r in H. apply H.
        apply Forall_forall. intros r Hr. apply in_iota. eapply Permutation_in; [exact Hperm|exact Hr].
      - rewrite zlen_app. replace (zlen s) with (acc_np acc) by (unfold acc; rewrite targets_np; cbn; lia). apply new_seg_ends, Hacc.
      - exists np, rp. split; [unfold s'; rewrite new_seg_roots; reflexivity|]. split; [reflexivity|]. split; [exact HL|]. apply new_seg_flag; [apply zlen_nonneg|exact Hpos]. }
    exists s', (np + zlen s), (rp ++ acc_roots acc). split; [|split; [exact HL'|]].
    2:{ split; [intros r n Hv; apply (new_seg_view g s np (zlen rp) r n Hf Hv)|]. 
        eapply Forall_impl; [|apply (new_seg_states (fun st => exists p0, In p0 s /\ st = g (elt_of (fst p0)))), (targets_state (fun st => exists p0, In p0 s /\ st = g (elt_of (fst p0))) g s []); [|constructor]].
        - cbn beta. intros p (st0 & (p0 & Hi0 & ->) & E). exists p0. auto.
        - apply Forall_forall. intros p Hp. exists p. auto. }
    pose proof (levels_sizes _ _ _ HL') as (Y1 & Y2 & Y3). rewrite !zlen_cons in *.
    unfold queryStacksPush. cbn [QS k_item tl k_np k_rp k_nodes known bind].
    replace (Z.of_nat MAX_STACK <=? zlen (itm L)) with false by (unfold zlen in *; rewrite itm_length; lia).
    assert (Et : push_targets d (QS own kid (s :: L) np rp) (rng (s :: L)) inp = Ok acc).
    { unfold push_targets. cbn [rng fst snd].
      assert (Hput : Forall2 same (put (tups_of own kid R) (fl L ++ map fst s)) (fl L ++ map fst s)) by apply put_same.
      apply Forall2_app_inv_r in Hput as (A & C & HA & HC & E).
      assert (EA : zlen (fl L) = zlen A) by (unfold zlen; rewrite (Forall2_len _ _ _ HA); reflexivity). rewrite EA in *.
      apply (push_targets_ok d inp (QS own kid (s :: L) np rp) g s A C [] rp); auto.
      replace (List.length s) with (List.length C) by (rewrite (Forall2_len _ _ _ HC), map_length; reflexivity). rewrite firstn_all. exact HC. }
    rewrite Et. cbn [bind known QS k_np k_rp k_nodes]. fold (acc_np acc). fold (acc_roots acc).
    rewrite <- (new_seg_fst acc np (zlen rp)). fold s'.
    replace (acc_np acc) with (zlen s) by (unfold acc; rewrite targets_np; cbn; lia).
    rewrite <- put_app_l by (rewrite tups_length; exact Hroots).
    change (fl (s :: L) ++ map fst s') with (fl (s' :: s :: L)).
    rewrite put_zlen.
    replace (MAX_NODE <? zlen (fl (s' :: s :: L))) with false by nia. replace (MAX_NODE <? np + zlen s) with false by nia.
    replace (MAX_NODE <? zlen (rp ++ acc_roots acc)) with false by nia. cbn [orb].
    f_equal. f_equal. rewrite fl_zlen. cbn [rng snd]. rewrite (fl_zlen s L). f_equal; lia.
  Qed.
End Levels.
