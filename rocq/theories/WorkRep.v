(** How the nodes of a worker represent one query stack per start state, and the
    loops over the nodes of a level. *)
From Verif Require Import Base Util Lexer Dfa Constraint Stream Worker Chains.
From Coq Require Import Permutation.
Open Scope Z_scope.

(** * Nodes with and without their tuple indexes *)
Fixpoint put (ts : list (Z * Z)) (ns : list tnode) : list tnode :=
  match ts, ns with
  | t :: ts', n :: ns' => with_tup n t :: put ts' ns'
  | _, _ => ns
  end.
Lemma put_length : forall ts ns, List.length (put ts ns) = List.length ns.
Proof. induction ts as [|t ts IH]; intros [|n ns]; cbn; auto. Qed.
Lemma put_zlen ts ns : zlen (put ts ns) = zlen ns.
Proof. unfold zlen. rewrite put_length. reflexivity. Qed.
Definition same (n m : tnode) : Prop :=
  t_state n = t_state m /\ t_count n = t_count m /\ t_ms n = t_ms m /\ t_pend n = t_pend m /\ t_root n = t_root m.
Lemma same_refl n : same n n.
Proof. repeat split. Qed.
Lemma put_nth : forall ts ns i n, nth_error ns i = Some n ->
  exists m, nth_error (put ts ns) i = Some m /\ same m n /\
    t_tup m = match nth_error ts i with Some t => Some t | None => t_tup n end.
Proof.
  induction ts as [|t ts IH]; intros [|m ns] [|i] n H; cbn in *; try discriminate.
  - injection H as ->. exists n. repeat split.
  - exists n. split; [exact H|]. repeat split.
  - injection H as ->. eexists. split; [reflexivity|]. repeat split.
  - apply IH. exact H.
Qed.
Lemma put_upd_tup : forall ts ns i n t, nth_error (put ts ns) i = Some n -> (i < List.length ts)%nat ->
  upd (put ts ns) i (with_tup n t) = put (upd ts i t) ns.
Proof.
  induction ts as [|t0 ts IH]; intros [|m ns] [|i] n t H Hl; cbn in *; try discriminate; try lia.
  - injection H as <-. reflexivity.
  - f_equal. apply IH; [exact H|lia].
Qed.
Definition set_elt (n : tnode) (c : Z) (m : mstart) : tnode := with_ms (with_count n c) m.
Lemma put_upd_elt : forall ts ns i n m c s, nth_error ns i = Some n -> nth_error (put ts ns) i = Some m ->
  upd (put ts ns) i (set_elt m c s) = put ts (upd ns i (set_elt n c s)).
Proof.
  induction ts as [|t0 ts IH]; intros [|x ns] [|i] n m c s H H'; cbn in *; try discriminate.
  - injection H as ->. injection H' as ->. reflexivity.
  - replace m with n by congruence. reflexivity.
  - injection H as ->. injection H' as <-. reflexivity.
  - f_equal. apply IH; assumption.
Qed.
Lemma put_app_l : forall ts a b, (List.length ts <= List.length a)%nat -> put ts (a ++ b) = put ts a ++ b.
Proof.
  induction ts as [|t ts IH]; intros [|n a] b H; cbn in *; try lia; try reflexivity. f_equal. apply IH. lia.
Qed.
Lemma put_nil ns : put [] ns = ns.
Proof. destruct ns; reflexivity. Qed.

(** * The chains of the current roots *)
Definition iota (n : nat) : list Z := map Z.of_nat (seq 0 n).
Lemma iota_length n : List.length (iota n) = n.
Proof. unfold iota. rewrite map_length, seq_length. reflexivity. Qed.
Lemma in_iota n r : In r (iota n) <-> 0 <= r < Z.of_nat n.
Proof.
  unfold iota. rewrite in_map_iff. split.
  - intros (k & <- & H). apply in_seq in H. lia.
  - intros H. exists (Z.to_nat r). split; [lia|]. apply in_seq. lia.
Qed.
Lemma nth_iota n k : (k < n)%nat -> nth_error (iota n) k = Some (Z.of_nat k).
Proof.
  intros H. unfold iota. rewrite nth_error_map. replace (nth_error (seq 0 n) k) with (Some k); [reflexivity|].
  symmetry. rewrite (nth_error_nth' _ O) by (rewrite seq_length; exact H). rewrite seq_nth by exact H. reflexivity.
Qed.
Definition tups_of (own : list Z) (kid : Z) (R : nat) : list (Z * Z) := map (fun r => ends (pos own (kid + r))) (iota R).
Lemma tups_length own kid R : List.length (tups_of own kid R) = R.
Proof. unfold tups_of. rewrite map_length, iota_length. reflexivity. Qed.
Lemma nth_tups own kid R k : (k < R)%nat -> nth_error (tups_of own kid R) k = Some (ends (pos own (kid + Z.of_nat k))).
Proof. intros H. unfold tups_of. rewrite nth_error_map, nth_iota by exact H. reflexivity. Qed.
Lemma list_ext {A} : forall (a b : list A), List.length a = List.length b -> (forall i, (i < List.length a)%nat -> nth_error a i = nth_error b i) -> a = b.
Proof.
  induction a as [|x a IH]; intros [|y b] H E; cbn in *; try discriminate; [reflexivity|].
  pose proof (E O ltac:(lia)) as E0. cbn in E0. injection E0 as ->. f_equal. apply IH; [lia|]. intros i Hi. apply (E (S i)). lia.
Qed.
Lemma tups_add own kid R r : 0 <= r < Z.of_nat R ->
  tups_of (own ++ [kid + r]) kid R =
  upd (tups_of own kid R) (Z.to_nat r) (let p := pos own (kid + r) in match p with [] => (zlen own, zlen own) | _ => (hd (-1) p, zlen own) end).
Proof.
  intros H. apply list_ext; [rewrite upd_length, !tups_length; reflexivity|]. rewrite tups_length. intros i Hi.
  rewrite nth_tups by exact Hi. rewrite pos_snoc. destruct (Nat.eq_dec i (Z.to_nat r)) as [->|Hne].
  - rewrite nth_error_upd_same by (rewrite tups_length; exact Hi). rewrite Z2Nat.id by lia. rewrite Z.eqb_refl. cbn zeta.
    destruct (pos own (kid + r)) as [|x p]; [reflexivity|]. unfold ends. cbn [app hd]. f_equal. f_equal. rewrite app_comm_cons, last_last. reflexivity.
  - rewrite nth_error_upd_other by lia. rewrite nth_tups by exact Hi. replace (kid + r =? kid + Z.of_nat i) with false by lia. rewrite app_nil_r. reflexivity.
Qed.

(** What store_tuple makes of a value. *)
Definition chk (v : wval) : res wval :=
  match v with VText s => t <- strcopy MAX_TEXT s ;; Ok (VText t) | VSpan b e => Ok (VSpan b e) end.

Record chst (own : list Z) (kid : Z) (R : nat) (tl : list wtuple) : Prop := mkChst {
  cs_chain : chain_ok own tl;
  cs_ids   : Forall (fun x => x < kid + Z.of_nat R) own
}.
Lemma chst_len own kid R tl : chst own kid R tl -> zlen own = zlen tl.
Proof. intros [[H _] _]. unfold zlen. congruence. Qed.

Lemma store_ok tl st v v' : zlen tl < MAX_TUPLE_LIST -> chk v = Ok v' -> store_tuple tl st v = Ok (tl ++ [mkT st v' (-1)]).
Proof.
  intros H E. unfold store_tuple. destruct (Z.leb_spec MAX_TUPLE_LIST (zlen tl)); [lia|].
  destruct v as [s|b e]; cbn in *; [|injection E as <-; reflexivity]. destruct (strcopy MAX_TEXT s); [|discriminate]. injection E as <-. reflexivity.
Qed.

Definition with_nodes (q : qstacks) (ns : list tnode) : qstacks := mkQs ns (k_np q) (k_rp q) (k_item q).
Lemma with_nodes_id q : with_nodes q (k_nodes q) = q.
Proof. destruct q; reflexivity. Qed.

Lemma pos_hd_nonneg own id x p : pos own id = x :: p -> 0 <= x.
Proof. intros E. assert (In x (pos own id)) by (rewrite E; left; reflexivity). apply posn_range in H. lia. Qed.

Lemma add_for_root_ok own kid R tl q sks st v v' r : chst own kid R tl -> (R <= List.length sks)%nat -> 0 <= r < Z.of_nat R ->
  zlen tl < MAX_TUPLE_LIST -> chk v = Ok v' ->
  exists tl', add_for_root st v (with_nodes q (put (tups_of own kid R) sks), tl) r =
                Ok (with_nodes q (put (tups_of (own ++ [kid + r]) kid R) sks), tl') /\
    chst (own ++ [kid + r]) kid R tl' /\ vals tl' = vals tl ++ [(st, v')].
Proof.
  intros Hc Hl Hr Hm Hv. pose proof (chst_len _ _ _ _ Hc) as Hz. destruct Hc as [Hch Hids].
  destruct (chain_add own tl (kid + r) st v' Hch) as (tl' & Hch' & Hvals & Htl).
  exists tl'. split; [|split; [split; [exact Hch'|apply Forall_app; split; [exact Hids|constructor; [lia|constructor]]]|exact Hvals]].
  unfold add_for_root. cbn [k_nodes with_nodes].
  destruct (nth_error sks (Z.to_nat r)) as [n0|] eqn:En; [|apply nth_error_None in En; lia].
  destruct (put_nth (tups_of own kid R) sks _ _ En) as (n & Hn & _ & Ht). rewrite nth_tups in Ht by lia. rewrite Z2Nat.id in Ht by lia.
  rewrite (zread_some _ r n) by (lia || exact Hn). cbn [bind]. rewrite Ht. cbn [known bind]. unfold ends.
  rewrite (store_ok tl st v v' Hm Hv). cbn [bind]. rewrite zlen_snoc. replace (zlen tl + 1 - 1) with (zlen tl) by lia.
  rewrite tups_add by exact Hr. cbn zeta in *. destruct (pos own (kid + r)) as [|x p] eqn:Ep.
  - cbn [hd Z.leb Z.compare]. subst tl'. unfold set_node. cbn [k_nodes with_nodes k_np k_rp k_item].
    rewrite (put_upd_tup _ _ _ _ _ Hn) by (rewrite tups_length; lia). rewrite Hz. reflexivity.
  - cbn [hd]. pose proof (pos_hd_nonneg _ _ _ _ Ep). replace (0 <=? x) with true by lia.
    destruct Htl as (t & Et & Htl). unfold linkTuples. rewrite Et. cbn [bind]. rewrite <- Htl. unfold set_node. cbn [k_nodes with_nodes k_np k_rp k_item].
    rewrite (put_upd_tup _ _ _ _ _ Hn) by (rewrite tups_length; lia). rewrite Hz. reflexivity.
Qed.

Lemma add_roots_ok kid R q sks st v v' : (R <= List.length sks)%nat -> chk v = Ok v' -> forall rs own tl, chst own kid R tl ->
  Forall (fun r => 0 <= r < Z.of_nat R) rs -> zlen tl + zlen rs <= MAX_TUPLE_LIST ->
  exists tl', foldM (add_for_root st v) rs (with_nodes q (put (tups_of own kid R) sks), tl) =
                Ok (with_nodes q (put (tups_of (own ++ map (Z.add kid) rs) kid R) sks), tl') /\
    chst (own ++ map (Z.add kid) rs) kid R tl' /\ vals tl' = vals tl ++ map (fun _ => (st, v')) rs.
Proof.
  intros Hl Hv. induction rs as [|r rs IH]; intros own tl Hc Hr Hm; cbn [foldM map].
  - exists tl. rewrite !app_nil_r. auto.
  - apply Forall_cons_iff in Hr as [Hr Hrs]. rewrite zlen_cons in Hm. pose proof (zlen_nonneg rs).
    destruct (add_for_root_ok own kid R tl q sks st v v' r Hc Hl Hr ltac:(lia) Hv) as (tl1 & E1 & C1 & V1).
    rewrite E1. cbn [bind].
    assert (Hz : zlen tl1 = zlen tl + 1).
    { unfold zlen in *. apply (f_equal (@List.length _)) in V1. unfold vals in V1. rewrite app_length, !map_length in V1. cbn in V1. lia. }
    destruct (IH _ _ C1 Hrs ltac:(lia)) as (tl2 & E2 & C2 & V2). exists tl2. rewrite <- app_assoc in *. cbn [app] in *.
    split; [exact E2|]. split; [exact C2|]. rewrite V2, V1, <- app_assoc. reflexivity.
Qed.

(** * One loop over consecutive nodes *)
Definition elt_of (n : tnode) : elt := mkElt (t_state n) (t_count n) (t_ms n).
Lemma zseq_nil s : zseq s (s - 1) = [].
Proof. unfold zseq. replace (s - 1 - s + 1) with 0 by lia. reflexivity. Qed.
Lemma zseq_cons s e : s <= e -> zseq s e = s :: zseq (s + 1) e.
Proof.
  intros H. unfold zseq. replace (Z.to_nat (e - s + 1)) with (S (Z.to_nat (e - (s + 1) + 1))) by lia.
  cbn [seq map]. f_equal; [lia|]. rewrite <- seq_shift, map_map. apply map_ext. intros. lia.
Qed.
Lemma mapM_slice {A} (pre : list A) : forall rs post, mapM (zread (pre ++ rs ++ post)) (zseq (zlen pre) (zlen pre + zlen rs - 1)) = Ok rs.
Proof.
  intros rs. revert pre. induction rs as [|r rs IH]; intros pre post.
  - rewrite zlen_nil. rewrite Z.add_0_r, zseq_nil. reflexivity.
  - pose proof (zlen_nonneg rs). rewrite zlen_cons, zseq_cons by lia. cbn [mapM].
    rewrite (zread_some _ (zlen pre) r) by (apply zlen_nonneg || (unfold zlen; rewrite Nat2Z.id, nth_error_app2, Nat.sub_diag by lia; reflexivity)).
    cbn [bind]. specialize (IH (pre ++ [r]) post). rewrite <- app_assoc in IH. cbn [app] in *. rewrite zlen_snoc in IH.
    replace (zlen pre + (zlen rs + 1) - 1) with (zlen pre + 1 + zlen rs - 1) by lia. rewrite IH. reflexivity.
Qed.

(** A node of the loop with its roots: it is a root itself, or its range gives them. *)
Definition node_roots (rp : list Z) (i : Z) (n : tnode) (rs : list Z) : Prop :=
  exists s e, t_root n = Some (s, e) /\ (if e =? -1 then rs = [i] else mapM (zread rp) (zseq s e) = Ok rs).
Definition rootp (n : tnode) : bool := match t_root n with Some (_, e) => e =? -1 | None => false end.

(** The effect of a loop body on a node and the tuples it makes. *)
Definition app1 (f : loop_body) (root : bool) (e : elt) : res (elt * option wval) :=
  '(e', out) <- f root e ;;
  o <- match out with None => Ok None | Some v => v' <- chk v ;; Ok (Some v') end ;;
  Ok (mkElt (q_state e) (q_count e') (q_ms e'), o).

Fixpoint new_own (kid : Z) (l : list (option wval * list Z)) : list Z :=
  match l with
  | [] => []
  | (Some _, rs) :: l' => map (Z.add kid) rs ++ new_own kid l'
  | (None, _) :: l' => new_own kid l'
  end.
Fixpoint new_vals (l : list ((Z * option wval) * list Z)) : list (Z * wval) :=
  match l with
  | [] => []
  | ((st, Some v), rs) :: l' => map (fun _ => (st, v)) rs ++ new_vals l'
  | ((_, None), _) :: l' => new_vals l'
  end.

Lemma nth_mid {A} (a : list A) x b : nth_error (a ++ x :: b) (Z.to_nat (zlen a)) = Some x.
Proof. unfold zlen. rewrite Nat2Z.id, nth_error_app2, Nat.sub_diag by lia. reflexivity. Qed.
Lemma upd_mid {A} (a : list A) x y b : upd (a ++ x :: b) (Z.to_nat (zlen a)) y = a ++ y :: b.
Proof. unfold zlen. rewrite Nat2Z.id. induction a; cbn; congruence. Qed.

Section Loops.
  Variables (f : loop_body) (kid : Z) (R : nat) (rp : list Z) (q : qstacks).
  Hypothesis Hrp : k_rp q = Some rp.

  Lemma visit_ok own tl sks i n rs e' out :
    chst own kid R tl -> (R <= List.length sks)%nat ->
    0 <= i -> nth_error sks (Z.to_nat i) = Some n -> node_roots rp i n rs ->
    Forall (fun r => 0 <= r < Z.of_nat R) rs ->
    app1 f (rootp n) (elt_of n) = Ok (e', out) ->
    zlen tl + match out with Some _ => zlen rs | None => 0 end <= MAX_TUPLE_LIST ->
    exists tl', visit f (with_nodes q (put (tups_of own kid R) sks), tl) i =
      Ok (with_nodes q (put (tups_of (own ++ new_own kid [(out, rs)]) kid R) (upd sks (Z.to_nat i) (set_elt n (q_count e') (q_ms e')))), tl') /\
      chst (own ++ new_own kid [(out, rs)]) kid R tl' /\ vals tl' = vals tl ++ new_vals [((t_state n, out), rs)].
  Proof.
    intros Hc Hl Hi Hn (s & e & Hroot & Hrs) Hr Hf Hm.
    unfold visit. cbn [fst k_nodes with_nodes].
    destruct (put_nth (tups_of own kid R) sks _ _ Hn) as (m & Em & (S1 & S2 & S3 & S4 & S5) & _).
    rewrite (zread_some _ i m Hi Em). cbn [bind]. unfold is_root. rewrite S5, Hroot. cbn [known bind].
    unfold rootp in Hf. rewrite Hroot in Hf. unfold elt_of in Hf. rewrite S1, S2, S3.
    unfold app1 in Hf. destruct (f (e =? -1) _) as [[e1 o1]|]; [|discriminate]. cbn [bind] in *.
    assert (Ee : match o1 with None => out = None | Some v => exists v', chk v = Ok v' /\ out = Some v' end /\ q_count e' = q_count e1 /\ q_ms e' = q_ms e1).
    { destruct o1 as [v|]; cbn [bind] in Hf; [destruct (chk v) as [v'|]; cbn [bind] in Hf; [|discriminate]|]; injection Hf as <- <-; cbn; eauto. }
    clear Hf. destruct Ee as (Eo & -> & ->).
    assert (G : forall own' tl', (R <= List.length sks)%nat ->
      (n' <- zread (k_nodes (with_nodes q (put (tups_of own' kid R) sks))) i ;;
       Ok (set_node (with_nodes q (put (tups_of own' kid R) sks)) i (with_ms (with_count n' (q_count e1)) (q_ms e1)), tl')) =
      Ok (with_nodes q (put (tups_of own' kid R) (upd sks (Z.to_nat i) (set_elt n (q_count e1) (q_ms e1)))), tl' : list wtuple)).
    { intros own' tl' _. cbn [k_nodes with_nodes]. destruct (put_nth (tups_of own' kid R) sks _ _ Hn) as (m' & Em' & _).
      rewrite (zread_some _ i m' Hi Em'). cbn [bind]. unfold set_node. cbn [k_nodes with_nodes k_np k_rp k_item].
      change (with_ms (with_count m' (q_count e1)) (q_ms e1)) with (set_elt m' (q_count e1) (q_ms e1)). rewrite (put_upd_elt _ _ _ _ _ _ _ Hn Em'). reflexivity. }
    destruct o1 as [v|].
    - destruct Eo as (v' & Ev & ->). cbn [new_own new_vals]. rewrite !app_nil_r.
      assert (Ea : addTupleInfo i (t_state n) v (with_nodes q (put (tups_of own kid R) sks), tl) =
                   foldM (add_for_root (t_state n) v) rs (with_nodes q (put (tups_of own kid R) sks), tl)).
      { unfold addTupleInfo. cbn [fst k_nodes with_nodes]. rewrite (zread_some _ i m Hi Em). cbn [bind].
        unfold roots_of. rewrite S5, Hroot. cbn [known bind k_rp with_nodes]. destruct (e =? -1); [subst rs; reflexivity|].
        rewrite Hrp. cbn [known bind]. rewrite Hrs. reflexivity. }
      rewrite Ea. destruct (add_roots_ok kid R q sks (t_state n) v v' Hl Ev rs own tl Hc Hr Hm) as (tl' & E' & C' & V').
      exists tl'. rewrite E'. cbn [bind]. rewrite G by exact Hl. auto.
    - subst out. cbn [new_own new_vals bind]. rewrite !app_nil_r. exists tl. rewrite G by exact Hl. auto.
  Qed.

  (** A segment of nodes with their roots. *)
  Fixpoint seg_ok (i : Z) (seg : list (tnode * list Z)) : Prop :=
    match seg with
    | [] => True
    | (n, rs) :: seg' => node_roots rp i n rs /\ Forall (fun r => 0 <= r < Z.of_nat R) rs /\ seg_ok (i + 1) seg'
    end.
  Definition res_seg (seg : list (tnode * list Z)) (outs : list (elt * option wval)) : list tnode :=
    map (fun p => set_elt (fst (fst p)) (q_count (fst (snd p))) (q_ms (fst (snd p)))) (combine seg outs).
  Definition seg_own (seg : list (tnode * list Z)) (outs : list (elt * option wval)) : list Z :=
    new_own kid (map (fun p => (snd (snd p), snd (fst p))) (combine seg outs)).
  Definition seg_vals (seg : list (tnode * list Z)) (outs : list (elt * option wval)) : list (Z * wval) :=
    new_vals (map (fun p => ((t_state (fst (fst p)), snd (snd p)), snd (fst p))) (combine seg outs)).

  Lemma vals_zlen tl : zlen (vals tl) = zlen tl.
  Proof. unfold zlen, vals. rewrite map_length. reflexivity. Qed.

  Lemma loop_seg C : forall seg outs own tl A,
    chst own kid R tl -> (R <= List.length (A ++ map fst seg ++ C))%nat ->
    seg_ok (zlen A) seg -> mapM (fun p => app1 f (rootp (fst p)) (elt_of (fst p))) seg = Ok outs ->
    zlen tl + zlen (flat_map snd seg) <= MAX_TUPLE_LIST ->
    exists tl', foldM (visit f) (zseq (zlen A) (zlen A + zlen seg - 1)) (with_nodes q (put (tups_of own kid R) (A ++ map fst seg ++ C)), tl) =
      Ok (with_nodes q (put (tups_of (own ++ seg_own seg outs) kid R) (A ++ res_seg seg outs ++ C)), tl') /\
      chst (own ++ seg_own seg outs) kid R tl' /\ vals tl' = vals tl ++ seg_vals seg outs.
  Proof.
    induction seg as [|[n rs] seg IH]; intros outs own tl A Hc Hl Hs Hf Hm; cbn [mapM] in Hf.
    - injection Hf as <-. rewrite zlen_nil, Z.add_0_r, zseq_nil. cbn [foldM]. exists tl. unfold seg_own, seg_vals, res_seg. cbn. rewrite !app_nil_r. auto.
    - cbn [fst snd] in Hf. destruct (app1 f (rootp n) (elt_of n)) as [[e' out]|] eqn:E1; [|discriminate]. cbn [bind] in Hf.
      destruct (mapM _ seg) as [outs'|] eqn:E2; [|discriminate]. injection Hf as <-.
      destruct Hs as (Hn & Hr & Hs). cbn [flat_map snd] in Hm. rewrite zlen_app in Hm. pose proof (zlen_nonneg (flat_map snd seg)). pose proof (zlen_nonneg rs).
      pose proof (zlen_nonneg seg). rewrite zlen_cons, zseq_cons by lia. cbn [foldM map fst app].
      destruct (visit_ok own tl (A ++ n :: map fst seg ++ C) (zlen A) n rs e' out Hc Hl (zlen_nonneg A) (nth_mid _ _ _) Hn Hr E1) as (tl1 & V1 & C1 & W1).
      { destruct out; lia. }
      rewrite V1. cbn [bind]. rewrite upd_mid.
      assert (Hz : zlen tl1 + zlen (flat_map snd seg) <= MAX_TUPLE_LIST).
      { apply (f_equal (@zlen _)) in W1. rewrite zlen_app, !vals_zlen in W1. rewrite W1. destruct out; cbn [new_vals]; rewrite ?app_nil_r, ?zlen_nil; [|lia].
        unfold zlen at 2. rewrite map_length. unfold zlen in *. lia. }
      specialize (IH outs' _ tl1 (A ++ [set_elt n (q_count e') (q_ms e')]) C1).
      rewrite <- !app_assoc in IH. cbn [app] in IH. rewrite zlen_snoc in IH.
      destruct IH as (tl2 & V2 & C2 & W2); auto.
      { rewrite app_length in *. cbn [List.length] in *. exact Hl. }
      replace (zlen A + (zlen seg + 1) - 1) with (zlen A + 1 + zlen seg - 1) by lia.
      exists tl2. rewrite V2.
      assert (Eo : new_own kid [(out, rs)] ++ seg_own seg outs' = seg_own ((n, rs) :: seg) ((e', out) :: outs')).
      { unfold seg_own. cbn [combine map new_own fst snd]. destruct out; cbn [app]; rewrite ?app_nil_r; reflexivity. }
      assert (Ev : new_vals [((t_state n, out), rs)] ++ seg_vals seg outs' = seg_vals ((n, rs) :: seg) ((e', out) :: outs')).
      { unfold seg_vals. cbn [combine map new_vals fst snd]. destruct out; cbn [app]; rewrite ?app_nil_r; reflexivity. }
      rewrite Eo in *. split; [reflexivity|]. split; [exact C2|]. rewrite W2, W1, <- app_assoc, Ev. reflexivity.
  Qed.
End Loops.
