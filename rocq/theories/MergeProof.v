(** The merging phase continues the serial run: what [merge_chunk] does with the
    result of a thread. *)
From Verif Require Import Base Util Lexer LexProof LexMain LexSpec Dfa Constraint Stream TreeSem Trunc Worker Merge Chains WorkRep Shared MalSpec NestSpec Single Specul Pruned Units PieceRun Report Steps.
Open Scope Z_scope.

Fixpoint stairs (n : nat) : list (Z * Z) := match n with O => [] | S k => (Z.of_nat k, Z.of_nat k) :: stairs k end.

(** The merged stacks hold one node per element of the serial engine. *)
Record mrel (ss : list sym) (es : list elt) (T : list tuple) (m : merged) : Prop := mkMrel {
  mr_ss    : m_ss m = ss;
  mr_nodes : map t_state (k_nodes (m_qs m)) = rev (map q_state es);
  mr_ms    : Forall (fun n => t_ms n <> MUninit) (k_nodes (m_qs m));
  mr_item  : k_item (m_qs m) = stairs (List.length es - 1);
  mr_cur   : m_cur m = (zlen es - 1, zlen es - 1);
  mr_tl    : vals (m_tl m) = wv T
}.
Lemma mrel_len ss es T m : mrel ss es T m -> List.length (k_nodes (m_qs m)) = List.length es.
Proof. intros [_ H _ _ _ _]. apply (f_equal (@List.length _)) in H. rewrite map_length, rev_length, map_length in H. exact H. Qed.
Lemma mrel_tlen ss es T m : mrel ss es T m -> zlen (m_tl m) = zlen T.
Proof. intros H. pose proof (mr_tl _ _ _ _ H) as E. apply (f_equal (@List.length _)) in E. unfold vals, wv in E. rewrite !map_length in E. unfold zlen. rewrite E. reflexivity. Qed.
(** The node of an element. *)
Lemma mrel_read ss a e b T m : mrel ss (a ++ e :: b) T m -> exists n, zread (k_nodes (m_qs m)) (zlen b) = Ok n /\ t_state n = q_state e /\ t_ms n <> MUninit.
Proof.
  intros H. pose proof (mrel_len _ _ _ _ H) as Hl. destruct H as [_ Hn Hms _ _ _]. pose proof (zlen_nonneg b).
  destruct (zread_total (k_nodes (m_qs m)) (zlen b)) as (n & En). { unfold zlen in *. rewrite Hl, app_length. cbn. lia. }
  exists n. split; [exact En|]. apply zread_inv in En as [_ En]. split.
  - apply (f_equal (fun l => nth_error l (Z.to_nat (zlen b)))) in Hn. rewrite nth_error_map, En in Hn. cbn in Hn.
    rewrite map_app, rev_app_distr in Hn. cbn [map rev] in Hn. rewrite <- app_assoc in Hn. replace (Z.to_nat (zlen b)) with (List.length (rev (map q_state b)) + 0)%nat in Hn by (rewrite rev_length, map_length; unfold zlen; lia).
    rewrite nth_error_app2 in Hn by lia. replace (List.length (rev (map q_state b)) + 0 - List.length (rev (map q_state b)))%nat with O in Hn by lia. cbn in Hn. congruence.
  - rewrite Forall_forall in Hms. apply Hms. apply nth_error_In in En. exact En.
Qed.
Lemma zlen_cons1 {A} (x : A) l : zlen (x :: l) - 1 = zlen l.
Proof. rewrite zlen_cons. lia. Qed.
Lemma map_upd_same (N : list tnode) : forall i n n', nth_error N i = Some n -> t_state n' = t_state n -> map t_state (upd N i n') = map t_state N.
Proof. induction N as [|x N IH]; intros [|i] n n' H E; cbn in *; try discriminate; [injection H as ->; congruence|]. f_equal. eapply IH; eauto. Qed.
Lemma Forall_upd {A} (P : A -> Prop) (N : list A) : forall i n, Forall P N -> P n -> Forall P (upd N i n).
Proof. induction N as [|x N IH]; intros [|i] n H Hn; cbn; auto; apply Forall_cons_iff in H as [H1 H2]; constructor; auto. Qed.

Lemma m_pop_ok ss e f es T m : mrel ss (e :: f :: es) T m -> exists m', m_pop m = Ok m' /\ mrel ss (f :: es) T m'.
Proof.
  intros H. destruct (mrel_read ss [e] f es T m H) as (n & En & _ & _). pose proof (mrel_len _ _ _ _ H) as Hl. destruct H as [Hss Hn Hms Hi Hc Ht].
  unfold m_pop, queryStacksPop. rewrite Hi. cbn [List.length Nat.sub stairs]. cbn [snd]. fold (zlen es). rewrite En. cbn [bind]. eexists. split; [reflexivity|]. split; cbn [m_ss m_qs k_nodes k_item m_cur m_tl].
  - exact Hss.
  - rewrite <- firstn_map, Hn. cbn [map rev]. rewrite <- app_assoc. replace (Z.to_nat (zlen es + 1)) with (List.length (rev (map q_state es) ++ [q_state f])).
    2:{ rewrite app_length, rev_length, map_length. cbn. unfold zlen. lia. }
    rewrite app_assoc, firstn_app, Nat.sub_diag, firstn_all, firstn_O, app_nil_r. reflexivity.
  - apply Forall_forall. intros x Hx. rewrite Forall_forall in Hms. apply Hms. rewrite <- (firstn_skipn (Z.to_nat (zlen es + 1))). apply in_or_app. auto.
  - cbn [List.length Nat.sub]. rewrite Nat.sub_0_r. reflexivity.
  - rewrite zlen_cons1. reflexivity.
  - exact Ht.
Qed.
Lemma m_count_ok ss e e' es T m : mrel ss (e :: es) T m -> q_state e' = q_state e -> exists m', m_count m = Ok m' /\ mrel ss (e' :: es) T m'.
Proof.
  intros H He. destruct (mrel_read ss [] e es T m H) as (n & En & Hs & Hmn). destruct H as [Hss Hn Hms Hi Hc Ht].
  unfold m_count. rewrite Hc. cbn [fst]. rewrite zlen_cons1, En. cbn [bind]. eexists. split; [reflexivity|]. apply zread_inv in En as [_ En]. split; cbn [m_ss m_qs k_nodes k_item m_cur m_tl set_node].
  - exact Hss.
  - rewrite (map_upd_same _ _ n _ En) by reflexivity. rewrite Hn. cbn [map]. rewrite He. reflexivity.
  - apply Forall_upd; [exact Hms|]. exact Hmn.
  - exact Hi.
  - rewrite zlen_cons1. reflexivity.
  - exact Ht.
Qed.
Lemma mrel_ss ss ss' es T m : mrel ss es T m -> mrel ss' es T (m_with_ss m ss').
Proof. intros []. split; auto. Qed.
Lemma mrel_hd ss e e' es T m : mrel ss (e :: es) T m -> q_state e' = q_state e -> mrel ss (e' :: es) T m.
Proof. intros [H1 H2 H3 H4 H5 H6] He. split; auto. cbn [map] in *. rewrite He. exact H2. Qed.

(** The first [k] nodes are those that the first thread has left: the lowest knows its
    tuples, the others their root. *)
Definition known_node (m : merged) (i : nat) (n : tnode) : Prop :=
  match i with
  | O => t_root n = Some (0, -1) /\ exists f l, t_tup n = Some (f, l) /\ (0 <= f -> 0 <= l < zlen (m_tl m))
  | S j => t_root n = Some (Z.of_nat j, Z.of_nat j)
  end.
Definition mknown (k : nat) (m : merged) : Prop :=
  exists rp, k_rp (m_qs m) = Some rp /\ (forall j, (S j < k)%nat -> (S j < List.length (k_nodes (m_qs m)))%nat -> nth_error rp j = Some 0) /\
    forall i n, nth_error (k_nodes (m_qs m)) i = Some n -> ((i < k)%nat -> known_node m i n) /\ ((k <= i)%nat -> t_root n = None).
Lemma nth_firstn {A} : forall k (l : list A) i x, nth_error (firstn k l) i = Some x -> (i < k)%nat /\ nth_error l i = Some x.
Proof. induction k as [|k IH]; intros [|y l] [|i] x H; cbn in *; try discriminate; [split; [lia|exact H]|]. destruct (IH l i x H). split; [lia|assumption]. Qed.
Lemma nth_firstn_lt {A} : forall k (l : list A) i, (i < k)%nat -> nth_error (firstn k l) i = nth_error l i.
Proof. induction k as [|k IH]; intros [|y l] [|i] H; cbn; try lia; auto. apply IH. lia. Qed.
Lemma nth_upd {A} : forall (N : list A) j i n x, nth_error (upd N j n) i = Some x -> (i = j /\ x = n) \/ (i <> j /\ nth_error N i = Some x).
Proof.
  induction N as [|y N IH]; intros [|j] [|i] n x H; cbn in *; try discriminate; auto.
  - injection H as <-. auto.
  - destruct (IH j i n x H) as [[-> ->]|[H1 H2]]; auto.
Qed.
Lemma known_append k m ss q cur new : mknown k m -> k_nodes q = k_nodes (m_qs m) ++ new -> k_rp q = k_rp (m_qs m) -> Forall (fun n => t_root n = None) new ->
  mknown (Nat.min k (List.length (k_nodes (m_qs m)))) (mkM ss q cur (m_tl m)).
Proof.
  intros (rp & H1 & H2 & H3) En Er Hnew. exists rp. cbn [m_qs m_tl]. split; [congruence|]. split; [intros j Hj _; apply H2; lia|]. intros i n Hi. rewrite En in Hi.
  destruct (Nat.lt_ge_cases i (List.length (k_nodes (m_qs m)))) as [Hlt|Hge].
  - rewrite nth_error_app1 in Hi by exact Hlt. destruct (H3 i n Hi) as [G1 G2]. split; intros; [apply G1|apply G2]; lia.
  - rewrite nth_error_app2 in Hi by exact Hge. split; [lia|]. intros _. rewrite Forall_forall in Hnew. apply Hnew. apply nth_error_In in Hi. exact Hi.
Qed.
Lemma known_pop k ss e f es T m m' : mrel ss (e :: f :: es) T m -> m_pop m = Ok m' -> mknown k m -> mknown k m'.
Proof.
  intros H E (rp & Hr & Hz & Hk). destruct (mrel_read ss [e] f es T m H) as (n & En & _ & _). pose proof (mrel_len _ _ _ _ H) as Hl. destruct H as [Hss Hn Hms Hi Hc Ht].
  unfold m_pop, queryStacksPop in E. rewrite Hi in E. cbn [List.length Nat.sub stairs snd] in E. fold (zlen es) in E. rewrite En in E. cbn [bind] in E. injection E as <-.
  apply zread_inv in En as [_ En]. cbn [List.length] in Hl. replace (Z.to_nat (zlen es)) with (List.length es) in En by (unfold zlen; lia).
  unfold mknown. cbn [m_qs k_rp k_nodes m_tl]. rewrite Hr. replace (Z.to_nat (zlen es + 1)) with (S (List.length es)) by (unfold zlen; lia). rewrite firstn_length, Hl.
  assert (Hnodes : forall i n0, nth_error (firstn (S (List.length es)) (k_nodes (m_qs m))) i = Some n0 -> ((i < k)%nat -> known_node (mkM (m_ss m) (mkQs [] None None []) (0, 0) (m_tl m)) i n0) /\ ((k <= i)%nat -> t_root n0 = None)).
  { intros i n0 Hi0. apply nth_firstn in Hi0 as [_ Hi0]. exact (Hk i n0 Hi0). }
  destruct (t_root n) as [[s b]|] eqn:Er; (eexists; split; [reflexivity|]; split; [|exact Hnodes]).
  - intros j Hj Hj2. destruct (Nat.lt_ge_cases (List.length es) k) as [Hlt|Hge].
    + pose proof (proj1 (Hk _ _ En) Hlt) as Hkn. destruct (List.length es) as [|q] eqn:Eq; [lia|]. cbn [known_node] in Hkn. rewrite Er in Hkn. injection Hkn as -> ->.
      rewrite nth_firstn_lt by lia. apply Hz; lia.
    + rewrite (proj2 (Hk _ _ En) Hge) in Er. discriminate.
  - intros j Hj Hj2. apply Hz; lia.
Qed.
Lemma known_count k m m' : m_count m = Ok m' -> mknown k m -> mknown k m'.
Proof.
  intros E (rp & Hr & Hz & Hk). unfold m_count in E. destruct (zread (k_nodes (m_qs m)) (fst (m_cur m))) as [n|] eqn:En; [|discriminate]. cbn [bind] in E. injection E as <-. apply zread_inv in En as [_ En].
  exists rp. unfold set_node. cbn [m_qs k_rp k_nodes m_tl]. split; [exact Hr|]. rewrite upd_length. split; [exact Hz|]. intros i n0 H. apply nth_upd in H as [[-> ->]|[_ H]].
  - pose proof (Hk _ _ En) as G. destruct (Z.to_nat (fst (m_cur m))); exact G.
  - exact (Hk _ _ H).
Qed.
Lemma known_ss k m ss : mknown k m -> mknown k (m_with_ss m ss).
Proof. auto. Qed.
Lemma vals_link tl l i tl' : linkTuples tl l i = Ok tl' -> vals tl' = vals tl /\ zlen tl' = zlen tl.
Proof.
  unfold linkTuples. destruct (zread tl l) as [t|] eqn:E; [|discriminate]. cbn [bind]. intros H. injection H as <-. apply zread_inv in E as [_ E]. split.
  - unfold vals. revert E. generalize (Z.to_nat l). induction tl as [|y tl IH]; intros [|j] E; cbn in *; try discriminate; [injection E as ->; reflexivity|]. f_equal. apply IH, E.
  - unfold zlen. rewrite upd_length. reflexivity.
Qed.
(** A tuple for an element that the first thread has opened. *)
Lemma known_add k ss e es T m st txt : mrel ss (e :: es) T m -> mknown k m -> (List.length es < k)%nat -> zlen T < MAX_TUPLE_LIST -> zlen txt <= 998 ->
  exists m', m_add (zlen es) st (VText txt) m = Ok m' /\ mrel ss (e :: es) (T ++ [(st, txt)]) m' /\ mknown k m'.
Proof.
  intros Hm Hk Hes Hmax Htxt. pose proof (mrel_tlen _ _ _ _ Hm) as Htl. destruct (mrel_read ss [] e es T m Hm) as (n & En & _ & _). pose proof (mrel_len _ _ _ _ Hm) as Hl. cbn [List.length] in Hl.
  destruct Hk as (rp & Hr & Hz & Hk). pose proof En as En'. apply zread_inv in En' as [_ En']. replace (Z.to_nat (zlen es)) with (List.length es) in En' by (unfold zlen; lia).
  destruct (zread_total (k_nodes (m_qs m)) 0) as (n0 & E0). { unfold zlen. lia. }
  pose proof E0 as E0'. apply zread_inv in E0' as [_ E0']. change (Z.to_nat 0) with O in E0'.
  destruct (proj1 (Hk O n0 E0') ltac:(lia)) as (Hr0 & f & l & Ht0 & Hfl).
  assert (Hroots : roots_of (m_qs m) (zlen es) n = Ok [0]).
  { pose proof (proj1 (Hk _ _ En') Hes) as G. unfold roots_of. destruct es as [|x es].
    - change (zlen (@nil elt)) with 0 in *. cbn [List.length known_node] in G. destruct G as (-> & _). reflexivity.
    - cbn [List.length known_node] in G. rewrite G. cbn [known bind]. replace (Z.of_nat (List.length es) =? -1) with false by lia. rewrite Hr. cbn [known bind].
      unfold zseq. replace (Z.to_nat (Z.of_nat (List.length es) - Z.of_nat (List.length es) + 1)) with 1%nat by lia. cbn [seq map mapM]. rewrite Z.add_0_r.
      assert (Ez : zread rp (Z.of_nat (List.length es)) = Ok 0). { apply zread_some; [lia|]. rewrite Nat2Z.id. apply Hz; cbn in *; lia. }
      rewrite Ez. reflexivity. }
  unfold m_add, addTupleInfo. cbn [fst]. rewrite En. cbn [bind]. rewrite Hroots. cbn [bind foldM]. unfold add_for_root. rewrite E0. cbn [bind]. rewrite Ht0. cbn [known bind].
  rewrite (store_ok _ _ (VText txt) (VText txt)) by (try lia; cbn; unfold strcopy, MAX_TEXT; replace (1000 <? zlen txt + 2) with false by lia; reflexivity). cbn [bind].
  set (tl1 := m_tl m ++ [mkT st (VText txt) (-1)]). assert (Hz1 : zlen tl1 = zlen (m_tl m) + 1) by (unfold tl1; rewrite zlen_app; reflexivity).
  assert (Hv1 : vals tl1 = wv (T ++ [(st, txt)])). { unfold tl1, vals, wv. rewrite !map_app. pose proof (mr_tl _ _ _ _ Hm) as G. unfold vals, wv in G. rewrite G. reflexivity. }
  assert (Gen : forall tl2 t, vals tl2 = vals tl1 -> zlen tl2 = zlen tl1 -> (0 <= fst t -> 0 <= snd t < zlen tl2) ->
    mrel ss (e :: es) (T ++ [(st, txt)]) (mkM (m_ss m) (set_node (m_qs m) 0 (with_tup n0 t)) (m_cur m) tl2) /\ mknown k (mkM (m_ss m) (set_node (m_qs m) 0 (with_tup n0 t)) (m_cur m) tl2)).
  { intros tl2 [a b] Hv2 Hz2 Hab. cbn [fst snd] in Hab. split.
    - destruct Hm as [M1 M2 M3 M4 M5 M6]. split; cbn [m_ss m_qs m_cur m_tl set_node k_nodes k_item]; auto.
      + rewrite (map_upd_same _ _ n0 _ E0') by reflexivity. exact M2.
      + apply Forall_upd; [exact M3|]. cbn [with_tup t_ms]. rewrite Forall_forall in M3. apply M3. apply nth_error_In in E0'. exact E0'.
      + congruence.
    - exists rp. unfold set_node. cbn [m_qs k_rp k_nodes m_tl]. split; [exact Hr|]. rewrite upd_length. split; [exact Hz|]. change (Z.to_nat 0) with O. intros i n1 H1. apply nth_upd in H1 as [[-> ->]|[Hne H1]].
      + split; [|lia]. intros _. cbn [known_node with_tup t_root t_tup]. split; [exact Hr0|]. exists a, b. auto.
      + pose proof (Hk _ _ H1) as G. destruct i; [congruence|]. exact G. }
  destruct (Z.leb_spec 0 f) as [Hf|Hf].
  - specialize (Hfl Hf). assert (El : exists tl2, linkTuples tl1 l (zlen tl1 - 1) = Ok tl2).
    { unfold linkTuples. destruct (zread_total tl1 l) as (y & Ey); [lia|]. rewrite Ey. eexists. reflexivity. }
    destruct El as (tl2 & El). rewrite El. cbn [bind]. destruct (vals_link _ _ _ _ El) as [V1 V2]. eexists. split; [reflexivity|].
    apply Gen; auto. cbn [fst snd]. intros _. pose proof (zlen_nonneg (m_tl m)). lia.
  - cbn [bind]. eexists. split; [reflexivity|]. apply Gen; auto. cbn [fst snd]. intros _. pose proof (zlen_nonneg (m_tl m)). lia.
Qed.

Section Closers.
  Variable d : dfa.
  Hypothesis Hd : dfa_ok d.
  Hypothesis Hkind : forall a, In a (d_accept d) -> 0 <= a <= 3.
  Variable D : nat.
  Hypothesis HD : (D <= 98)%nat.
  Notation acc := (acc d).
  Notation succ := (succ d).
  Notation sinv := (sinv d D).
  Notation notout := (notout d).

  Lemma merge_type n : valid_state d (t_state n) -> calm_state d (t_state n) -> mergeType d n = Ok (acc (t_state n)).
  Proof. intros H [Hc _]. unfold mergeType. apply (free_type d Hd Hkind); assumption. Qed.

  Lemma rcb_ok prev here i k l c T m es' : sinv l c -> hd_error l = Some OBrace -> notout c -> arrs d k l (elts c) -> mrel (map sy l) (elts c) T m -> mknown k m -> move d l TRCB (elts c) es' ->
    zlen (T ++ close_add d l TRCB (q_state (c_cur c))) <= MAX_TUPLE_LIST ->
    exists m', merge_rcb d prev here i m = Ok m' /\ mrel (map sy (onto l TRCB)) es' (T ++ close_add d l TRCB (q_state (c_cur c))) m' /\ mknown k m'.
  Proof.
    intros Hi Hl Hno Har Hm Hkn Hmv Hmax. destruct l as [|[] l]; try discriminate. pose proof (si_ok _ _ _ _ Hi) as Hok. pose proof (si_len _ _ _ _ Hi) as Hlen. unfold Steps.notout, elts in *.
    apply Forall_cons_iff in Hok as [[Hv _] _]. apply Forall_cons_iff in Hno as [Ho _].
    destruct (mrel_read _ [] (c_cur c) (c_qs c) T m Hm) as (n & En & Hs & Hmn). rewrite <- Hs in Hv, Ho.
    unfold merge_rcb. rewrite (mr_cur _ _ _ _ Hm). cbn [fst]. rewrite zlen_cons1, En. cbn [bind]. rewrite (mr_ss _ _ _ _ Hm). cbn [map sy].
    assert (E : match ms_set (t_ms n) with Ok _ => True | UB _ => False end) by (destruct (t_ms n); cbn; auto).
    assert (Hout : (acc (t_state n) =? DFA_OUTPUT_CANDIDATE) = false) by (apply Z.eqb_neq, Ho).
    rewrite (merge_type n Hv Ho). destruct (ms_set (t_ms n)) as [[z|]|]; [| |contradiction]; cbn [bind]; try rewrite Hout; cbn [bind]; clear E; rewrite (mr_ss _ _ _ _ Hm); cbn [map sy].
    all: destruct l as [|[] l]; cbn [map sy onto tl value_done move close_add] in *.
    all: try (pose proof (si_shape _ _ _ _ Hi) as Hsh; cbn in Hsh; destruct Hsh as [Hsh _]; discriminate).
    all: try (destruct Hmv as (e & e' & b & Ee & -> & [Hk _]); injection Ee as <- <-).
    all: try (eexists; split; [reflexivity|]; rewrite app_nil_r; split; [|apply known_ss, Hkn]; apply (mrel_ss (SLCB :: nil)); eapply mrel_hd; [exact Hm|exact Hk]).
    all: try (destruct Hmv as (e & Ee); injection Ee as <- Eq; destruct es' as [|f es']; [rewrite Eq in Hlen; discriminate|];
      rewrite Eq in Hm; pose proof (mrel_ss _ (map sy l) _ _ _ Hm) as Hm1; destruct (m_pop_ok (map sy l) (c_cur c) f es' T (m_with_ss m (map sy l)) Hm1) as (m' & Em & Hm'); exists m'; rewrite app_nil_r; split; [exact Em|]; split; [exact Hm'|];
      exact (known_pop k _ _ _ _ _ _ _ Hm1 Em (known_ss _ _ _ Hkn))).
    all: pose proof (mrel_ss _ (SLB :: map sy l) _ _ _ Hm) as Hm1; destruct (m_count_ok (SLB :: map sy l) (c_cur c) e' (c_qs c) T (m_with_ss m (SLB :: map sy l)) Hm1 Hk) as (m1 & Em & Hm').
    all: pose proof (known_count k _ _ Em (known_ss _ _ _ Hkn)) as Hkn1; rewrite Em; cbn [bind]; try rewrite (merge_type n Hv Ho); cbn [bind]; rewrite <- Hs in *.
    all: destruct (Z.eqb_spec (acc (t_state n)) DFA_PREDICATE) as [Ep|Ep]; [|rewrite app_nil_r; eexists; split; [reflexivity|]; split; assumption].
    all: cbn [arrs] in Har; destruct Har as (_ & Har & _); rewrite <- Hs in Har; specialize (Har Ep).
    all: rewrite zlen_app in Hmax; change (zlen [(t_state n, B "}")]) with 1 in Hmax; cbn in Hlen.
    all: destruct (known_add k _ e' (c_qs c) T m1 (t_state n) (B "}") Hm' Hkn1) as (m' & Ea & Hma & Hka); [unfold nopen in Har; lia|lia|cbn; lia|].
    all: exists m'; split; [exact Ea|]; split; assumption.
  Qed.
  Lemma rb_ok k l c T m es' : sinv l c -> hd_error l = Some OBracket -> notout c -> mrel (map sy l) (elts c) T m -> mknown k m -> move d l TRB (elts c) es' ->
    exists m', merge_rb d m = Ok m' /\ mrel (map sy (onto l TRB)) es' T m' /\ mknown k m'.
  Proof.
    intros Hi Hl Hno Hm Hkn Hmv. destruct l as [|[] l]; try discriminate. pose proof (si_ok _ _ _ _ Hi) as Hok. unfold Steps.notout, elts in *.
    pose proof (si_len _ _ _ _ Hi) as Hlen. cbn in Hlen. destruct (c_qs c) as [|e1 qs]; [discriminate|].
    apply Forall_cons_iff in Hok as [_ Hok]. apply Forall_cons_iff in Hok as [[Hv _] _]. apply Forall_cons_iff in Hno as [_ Hno]. apply Forall_cons_iff in Hno as [Ho _].
    destruct (mrel_read _ [c_cur c] e1 qs T m Hm) as (n & En & Hs & Hmn). rewrite <- Hs in Hv, Ho.
    unfold merge_rb. rewrite (mr_item _ _ _ _ Hm), (mr_ss _ _ _ _ Hm). cbn [map sy List.length Nat.sub stairs bind fst]. fold (zlen qs). rewrite En. cbn [bind].
    assert (E : exists s, ms_set (t_ms n) = Ok s) by (destruct (t_ms n); cbn; eauto; congruence). destruct E as (s & Es). rewrite Es. cbn [bind].
    assert (Hout : (acc (t_state n) =? DFA_OUTPUT_CANDIDATE) = false) by (apply Z.eqb_neq, Ho).
    rewrite (merge_type n Hv Ho). cbn [bind]. rewrite Hout.
    assert (E : (match s with Some _ => Ok tt | None => Ok tt end) = Ok tt :> res unit) by (destruct s; reflexivity). rewrite E. cbn [bind]. clear E.
    destruct l as [|[] l]; cbn [map sy onto tl value_done move] in *.
    - destruct Hmv as (x & Ex). injection Ex as <- <-. pose proof (mrel_ss _ [] _ _ _ Hm) as Hm0. destruct (m_pop_ok [] (c_cur c) e1 qs T _ Hm0) as (m1 & E1 & H1). exists m1. split; [exact E1|]. split; [exact H1|].
      exact (known_pop k _ _ _ _ _ _ _ Hm0 E1 (known_ss _ _ _ Hkn)).
    - destruct Hmv as (x1 & x2 & Ex). injection Ex as <- <- ->. cbn in Hlen. destruct es' as [|f es']; [discriminate|]. pose proof (mrel_ss _ (map sy l) _ _ _ Hm) as Hm0.
      destruct (m_pop_ok (map sy l) (c_cur c) e1 (f :: es') T _ Hm0) as (m1 & E1 & H1). rewrite E1. cbn [bind].
      destruct (m_pop_ok _ e1 f es' T m1 H1) as (m2 & E2 & H2). exists m2. split; [exact E2|]. split; [exact H2|].
      exact (known_pop k _ _ _ _ _ _ _ H1 E2 (known_pop k _ _ _ _ _ _ _ Hm0 E1 (known_ss _ _ _ Hkn))).
    - contradiction.
    - destruct Hmv as (x1 & x2 & x3 & b & Ex & -> & [Hk _]). injection Ex as <- <- <-. pose proof (mrel_ss _ (SLB :: map sy l) _ _ _ Hm) as Hm0.
      destruct (m_pop_ok (SLB :: map sy l) (c_cur c) e1 qs T _ Hm0) as (m1 & E1 & H1). rewrite E1. cbn [bind].
      destruct (m_count_ok _ e1 x3 qs T m1 H1 Hk) as (m2 & E2 & H2). exists m2. split; [exact E2|]. split; [exact H2|].
      exact (known_count k _ _ E2 (known_pop k _ _ _ _ _ _ _ Hm0 E1 (known_ss _ _ _ Hkn))).
  Qed.

  Lemma closers_ok prev here buf k : forall P l c c' m, Forall closer P -> sinv l c -> oks D l (map e_tok P) -> notout c -> arrs d k l (elts c) -> mrel (map sy l) (elts c) (c_tl c) m -> mknown k m ->
    run d buf P c = Ok c' -> zlen (c_tl c') <= MAX_TUPLE_LIST ->
    exists m', sinv (after l P) c' /\ notout c' /\ arrs d k (after l P) (elts c') /\
      foldM (merge_sym d prev here) (syms_of P) m = Ok m' /\ mrel (map sy (after l P)) (elts c') (c_tl c') m' /\ mknown k m'.
  Proof.
    induction P as [|ev P IH]; intros l c c' m HP Hi Ho Hn Har Hm Hkn Hrun Hmax.
    - injection Hrun as <-. exists m. repeat (split; [first [reflexivity|assumption]|]). exact Hkn.
    - apply Forall_cons_iff in HP as [Hev HP]. cbn [map oks] in Ho. destruct Ho as [Ho1 Ho2]. unfold run in Hrun. cbn [foldM] in Hrun.
      destruct (core_step d buf c ev) as [c1|] eqn:E1; [|discriminate]. cbn [bind] in Hrun.
      destruct (step_move d Hd Hkind D HD buf l c ev c1 Hi Ho1 E1) as [_ Hmv].
      pose proof (closer_tl d Hd Hkind D buf l c ev c1 Hi Ho1 Hn Hev E1) as Htl.
      assert (Hn1 : notout c1) by exact (move_closer d D (calm_state d) _ _ _ _ Hev Ho1 Hmv Hn).
      pose proof (arrs_closer d D k _ _ _ _ Hev Ho1 Hmv Har) as Har1.
      pose proof (step_sinv d Hd Hkind D HD buf l c ev c1 Hi Ho1 E1) as Hi1.
      assert (Hmax1 : zlen (c_tl c1) <= MAX_TUPLE_LIST). { destruct (Trunc.run_grows _ _ _ _ _ Hrun) as (lx & Elx). rewrite Elx, zlen_app in Hmax. pose proof (zlen_nonneg lx). lia. }
      assert (G : exists m1, foldM (merge_sym d prev here) (sym_of ev) m = Ok m1 /\ mrel (map sy (onto l (e_tok ev))) (elts c1) (c_tl c1) m1 /\ mknown k m1).
      { rewrite Htl in *. unfold sym_of. destruct Hev as [Ht|[Ht|Ht]]; rewrite Ht in *; cbn [okt foldM merge_sym] in *.
        - destruct (rcb_ok prev here (e_next ev - 1) k l c (c_tl c) m (elts c1) Hi Ho1 Hn Har Hm Hkn Hmv Hmax1) as (m1 & -> & H1). exists m1. auto.
        - destruct (rb_ok k l c (c_tl c) m (elts c1) Hi Ho1 Hn Hm Hkn Hmv) as (m1 & -> & H1). exists m1. destruct l; cbn [close_add]; rewrite app_nil_r; auto.
        - exists m. split; [reflexivity|]. cbn [move] in Hmv. rewrite Hmv. destruct l; cbn [close_add]; rewrite app_nil_r; auto. }
      destruct G as (m1 & F1 & Hm1 & Hkn1). destruct (IH _ c1 c' m1 HP Hi1 Ho2 Hn1 Har1 Hm1 Hkn1 Hrun Hmax) as (m' & G3 & G4 & Ga & G5 & G6 & G7).
      exists m'. split; [exact G3|]. split; [exact G4|]. split; [exact Ga|]. split; [|split; assumption].
      unfold syms_of. cbn [flat_map]. rewrite foldM_app, F1. exact G5.
  Qed.

  (** * The tuples of a root *)
  Lemma raw_len buf from n r : ~ In NUL buf -> read_range buf from n = Ok r -> n <= zlen (c_string r) + 1.
  Proof.
    intros Hnn. unfold read_range. pose proof (zlen_nonneg (c_string r)). destruct (Z.leb_spec n 0); [intros; lia|]. destruct ((from <? 0) || (zlen buf + 1 <? from + n)) eqn:E; [discriminate|]. intros Hr. injection Hr as <-.
    apply orb_false_iff in E as [E1 E2]. apply Z.ltb_ge in E1, E2. set (k := Z.to_nat from). assert (Hk : (k <= List.length buf)%nat) by (unfold k, zlen in *; lia).
    rewrite skipn_app. replace (k - List.length buf)%nat with O by lia. cbn [skipn]. set (s := skipn k buf). assert (Hs : ~ In NUL s). { intros Hin. apply Hnn. rewrite <- (firstn_skipn k). apply in_or_app. auto. }
    assert (Hl : zlen s = zlen buf - from) by (unfold s, zlen; rewrite skipn_length; unfold k, zlen in *; lia).
    rewrite firstn_app. destruct (Nat.le_gt_cases (Z.to_nat n) (List.length s)) as [Hle|Hgt].
    - replace (Z.to_nat n - List.length s)%nat with O by lia. cbn [firstn]. rewrite app_nil_r, c_string_id.
      + unfold zlen. rewrite firstn_length. lia.
      + intros Hin. apply Hs. rewrite <- (firstn_skipn (Z.to_nat n)). apply in_or_app. auto.
    - rewrite firstn_all2 by lia. replace (Z.to_nat n - List.length s)%nat with 1%nat by (unfold zlen in *; lia). cbn [firstn].
      assert (Ec : c_string (s ++ [NUL]) = s). { clear -Hs. induction s as [|x s IH]; [reflexivity|]. cbn [app c_string]. destruct (Ascii.eqb_spec x NUL) as [->|Hx]; [destruct Hs; left; reflexivity|]. rewrite IH; [reflexivity|]. intros H. apply Hs. right. exact H. }
      rewrite Ec. lia.
  Qed.
  Lemma in_place buf b e txt : ~ In NUL buf -> substring buf 0 b e = Ok txt -> zlen txt <= 998 -> substring_in_place MAX_TEXT buf 0 b e = Ok txt.
  Proof.
    intros Hnn. unfold substring, substring_in_place. destruct (Z.ltb_spec e b); [discriminate|]. destruct (read_range buf (ltrim buf 0 + b) (e - b)) as [r|] eqn:Er; [|discriminate]. cbn [bind]. intros E Hl. injection E as <-.
    pose proof (raw_len _ _ _ _ Hnn Er). replace (Z.max 0 (e - b)) with (e - b) by lia. unfold MAX_TEXT. replace (1000 <? e - b + 1) with false by lia. rewrite Er. reflexivity.
  Qed.
  Lemma collect_one_ok buf v t x ss es T m : ~ In NUL buf -> (w_state t, w_val t) = v -> vrel buf v x -> mrel ss es T m -> zlen T < MAX_TUPLE_LIST ->
    exists m', collect_one buf t m = Ok m' /\ mrel ss es (T ++ [x]) m' /\ forall k, mknown k m -> mknown k m'.
  Proof.
    intros Hnn <- (H1 & H2 & H3) Hm Ht. cbn [fst snd] in *. unfold collect_one.
    assert (E : match w_val t with VText s => Ok s | VSpan b e => substring_in_place MAX_TEXT buf 0 b e end = Ok (snd x)).
    { destruct (w_val t); [congruence|]. apply in_place; assumption. }
    rewrite E. cbn [bind]. pose proof (mrel_tlen _ _ _ _ Hm) as Hl. rewrite (store_ok _ _ (VText (snd x)) (VText (snd x))).
    - cbn [bind]. eexists. split; [reflexivity|]. split.
      2:{ intros k (rp & K1 & K2 & K3). exists rp. split; [exact K1|]. split; [exact K2|]. intros i n Hi. cbn [m_qs] in Hi. destruct (K3 i n Hi) as [K4 K5]. split; [|exact K5]. intros Hik. specialize (K4 Hik).
          destruct i; [|exact K4]. cbn [known_node m_tl] in *. destruct K4 as (K4 & f & l & K6 & K7). split; [exact K4|]. exists f, l. split; [exact K6|]. intros Hf. rewrite zlen_app. change (zlen [_]) with 1. specialize (K7 Hf). lia. }
      destruct Hm as [M1 M2 M3 M4 M5 M6]. split; cbn [m_ss m_qs m_cur m_tl]; auto.
      unfold vals, wv in *. rewrite !map_app, M6. cbn. rewrite H1. reflexivity.
    - lia.
    - cbn. unfold strcopy, MAX_TEXT. replace (1000 <? zlen (snd x) + 2) with false by lia. reflexivity.
  Qed.
  Lemma collect_ok buf tl : ~ In NUL buf -> forall vs X i fuel ss e es T m, chain_at tl vs i -> Forall2 (vrel buf) vs X -> (List.length vs < fuel)%nat -> mrel ss (e :: es) T m ->
    Specul.free d (q_state e) -> (q_state e = 0 -> vs = []) -> zlen T + zlen X <= MAX_TUPLE_LIST ->
    exists m', collect d fuel buf tl i m = Ok m' /\ mrel ss (e :: es) (T ++ X) m' /\ forall k, mknown k m -> mknown k m'.
  Proof.
    intros Hnn. induction vs as [|v vs IH]; intros X i fuel ss e es T m Hc HX Hf Hm Hv Hz Ht; inversion HX; subst; cbn [chain_at] in Hc.
    - subst i. exists m. rewrite app_nil_r. split; [destruct fuel; reflexivity|auto].
    - destruct Hc as (Hi & t & Et & Ev & Hc). destruct fuel as [|fuel]; [cbn in Hf; lia|]. cbn [collect]. replace (i =? -1) with false by lia. rewrite Et. cbn [bind].
      destruct (mrel_read _ [] e es T m Hm) as (n & En & Hs & Hmn). rewrite (mr_cur _ _ _ _ Hm). cbn [fst]. rewrite zlen_cons1, En. cbn [bind].
      destruct (Z.eqb_spec (t_state n) 0) as [E0|E0]. { rewrite Hs in E0. discriminate (Hz E0). }
      unfold getDFAArrayIndex. unfold Specul.free in Hv. rewrite Hs, Hv. cbn [bind Z.eqb andb].
      rewrite zlen_cons in Ht. pose proof (zlen_nonneg l'). assert (HT : zlen T < MAX_TUPLE_LIST) by lia.
      destruct (collect_one_ok buf v t y ss (e :: es) T m Hnn Ev H1 Hm HT) as (m1 & E1 & Hm1 & Hk1).
      rewrite E1. cbn [bind]. destruct (IH l' (w_next t) fuel ss e es (T ++ [y]) m1) as (m' & E' & Hm' & Hk'); auto.
      { cbn in Hf. lia. } { intros E. destruct E0. congruence. } { rewrite zlen_app. change (zlen [y]) with 1. lia. }
      exists m'. split; [exact E'|]. rewrite <- app_assoc in Hm'. split; [exact Hm'|auto].
  Qed.
End Closers.

(** * Appending the stacks of a thread *)
Record qrel (es : list elt) (q : qstacks) (cur : Z * Z) : Prop := mkQrel {
  qr_nodes : map t_state (k_nodes q) = rev (map q_state es);
  qr_ms    : Forall (fun n => t_ms n <> MUninit) (k_nodes q);
  qr_item  : k_item q = stairs (List.length es - 1);
  qr_cur   : cur = (zlen es - 1, zlen es - 1)
}.
Lemma stairs_len n : List.length (stairs n) = n.
Proof. induction n; cbn; congruence. Qed.
Fixpoint levs (L : list seg) : list (Z * Z) :=
  match L with [] => [] | s :: L' => match L' with [] => [] | _ => levs L' ++ [rng L] end end.
Lemma rev_itm : forall L s0, rev (itm (L ++ [s0])) = rng [s0] :: levs (L ++ [s0]).
Proof.
  induction L as [|s L IH]; intros s0; [reflexivity|]. cbn [app itm rev]. rewrite IH. cbn [levs]. destruct (L ++ [s0]) as [|s1 L1] eqn:E; [destruct L; discriminate|]. reflexivity.
Qed.

Section Append.
  Variable R : nat.
  Variable st : Z -> Z.
  Variables (own : list Z) (kid : Z) (Lt : list seg) (np : Z) (rp : list Z).
  Notation src := (QS R own kid Lt np rp).

  Lemma mapM_app_rp (x : list Z) : forall zs (rp1 rs : list Z), mapM (zread rp1) zs = Ok rs -> mapM (zread (rp1 ++ x)) zs = Ok rs.
  Proof.
    induction zs as [|z zs IH]; intros rp1 rs H; cbn [mapM] in *; [exact H|]. destruct (zread rp1 z) as [a|] eqn:E; [|discriminate]. cbn [bind] in H.
    rewrite (zread_app1 rp1 x z) by (apply zread_inv in E; apply E). rewrite E. cbn [bind]. destruct (mapM (zread rp1) zs) as [as_|] eqn:Em; [|discriminate]. rewrite (IH _ _ Em). exact H.
  Qed.
  Lemma node_roots_app rp1 x i n rs : node_roots rp1 i n rs -> node_roots (rp1 ++ x) i n rs.
  Proof. intros (s & e & H1 & H2). exists s, e. split; [exact H1|]. destruct (e =? -1); [exact H2|]. apply mapM_app_rp, H2. Qed.
  Lemma seg_ok_app rp1 x : forall s i, seg_ok R rp1 i s -> seg_ok R (rp1 ++ x) i s.
  Proof. induction s as [|[n rs] s IH]; intros i H; [exact I|]. destruct H as (H1 & H2 & H3). split; [apply node_roots_app, H1|]. split; [exact H2|]. apply IH, H3. Qed.
  Lemma levels_suffix : forall pre s L np1 rp1, levels R st (pre ++ s :: L) np1 rp1 -> L <> [] -> seg_ok R rp1 (zlen (fl L)) s /\ Forall (fun p => rootp (fst p) = false) s.
  Proof.
    induction pre as [|t pre IH]; intros s L np1 rp1 H HL; cbn [app levels] in H.
    - destruct H as (_ & H2 & _ & H4). destruct L; [congruence|]. destruct H4 as (np' & rp' & _ & _ & _ & H). auto.
    - destruct H as (_ & _ & _ & H4). destruct (pre ++ s :: L) as [|t2 L2] eqn:E; [destruct pre; discriminate|]. destruct H4 as (np' & rp' & -> & _ & H4 & _).
      rewrite <- E in H4. destruct (IH s L np' rp' H4 HL) as [H5 H6]. split; [apply seg_ok_app, H5|exact H6].
  Qed.

  Lemma find_path_ok r : forall s i, 0 <= i -> (forall k p, nth_error s k = Some p -> nth_error (fl Lt) (Z.to_nat i + k) = Some (fst p)) ->
    seg_ok R rp i s -> Forall (fun p : tnode * list Z => rootp (fst p) = false) s ->
    forall n, view r s = Some n -> exists m, find_path src (zseq i (i + zlen s - 1)) r = Ok (Some m) /\ t_state m = t_state n /\ t_ms m = t_ms n.
  Proof.
    induction s as [|[n0 rs] s IH]; intros i Hi Hn Hs Hr n Hv; [discriminate|]. cbn [seg_ok] in Hs. destruct Hs as ((a & b & Hroot & Hrs) & _ & Hs). apply Forall_cons_iff in Hr as [Hr0 Hr].
    rewrite zlen_cons. pose proof (zlen_nonneg s). rewrite zseq_cons by lia. cbn [find_path].
    pose proof (Hn O _ eq_refl) as H0. rewrite Nat.add_0_r in H0. cbn [fst] in H0. destruct (put_nth (tups_of own kid R) (fl Lt) _ _ H0) as (m & Em & (S1 & S2 & S3 & S4 & S5) & _).
    cbn [k_nodes QS]. rewrite (zread_some _ i m Hi Em). cbn [bind]. unfold range_roots. rewrite S5, Hroot. cbn [known bind k_rp QS].
    unfold rootp in Hr0. cbn [fst] in Hr0. rewrite Hroot in Hr0. rewrite Hr0 in Hrs. rewrite Hrs. cbn [bind]. cbn [view] in Hv. destruct (existsb (Z.eqb r) rs).
    - injection Hv as <-. exists m. auto.
    - replace (i + (zlen s + 1) - 1) with ((i + 1) + zlen s - 1) by lia. apply IH; auto; [lia|]. intros k p Hk. replace (Z.to_nat (i + 1) + k)%nat with (Z.to_nat i + S k)%nat by lia. apply Hn. exact Hk.
  Qed.
  Lemma fl_nth : forall pre s L k p, nth_error s k = Some p -> nth_error (fl (pre ++ s :: L)) (Z.to_nat (zlen (fl L)) + k) = Some (fst p).
  Proof.
    induction pre as [|t pre IH]; intros s L k p H; cbn [app fl].
    - rewrite nth_error_app2 by (unfold zlen; lia). replace (Z.to_nat (zlen (fl L)) + k - List.length (fl L))%nat with k by (unfold zlen; lia). rewrite nth_error_map, H. reflexivity.
    - rewrite nth_error_app1; [apply IH, H|]. apply nth_error_Some. rewrite (IH s L k p H). discriminate.
  Qed.

  Variable d : dfa.
  Lemma append_ok r dst cur0 below : levels R st Lt np rp -> allgood d Lt -> forall L pre o es, Lt = pre ++ L -> L <> [] -> lrel d r o L es ->
    (forall s0 e0 x, L = x ++ [s0] -> (exists n, view r s0 = Some n /\ t_state n = q_state e0) -> qrel (e0 :: below) dst cur0) ->
    (List.length (es ++ below) <= 100)%nat ->
    exists q cur, foldM (combine_level src r) (levs L) (dst, cur0) = Ok (q, cur) /\ qrel (es ++ below) q cur /\
      exists new, k_nodes q = k_nodes dst ++ new /\ Forall (fun n => t_root n = None) new /\ k_rp q = k_rp dst.
  Proof.
    intros HL Hg. induction L as [|s L IH]; intros pre o es HLt Hne Hl Hb Hlen; [congruence|]. destruct es as [|e es]; [contradiction|]. cbn [lrel] in Hl. destruct Hl as [(n & Hv & Hs & _) Hl].
    destruct L as [|s2 L].
    - destruct es; [|contradiction]. cbn [levs foldM]. exists dst, cur0. split; [reflexivity|]. split; [apply (Hb s e []); [reflexivity|]; eauto|]. exists []. rewrite app_nil_r. auto.
    - destruct (IH (pre ++ [s]) true es) as (q & cur & E & Hq & new & Hnw & Hnn & Hrp).
      { rewrite <- app_assoc. exact HLt. } { discriminate. } { exact Hl. }
      { intros s0 e0 x Ex Hx. apply (Hb s0 e0 (s :: x)); [rewrite Ex; reflexivity|exact Hx]. } { cbn [app List.length] in Hlen. lia. }
      assert (Ed : levs (s :: s2 :: L) = levs (s2 :: L) ++ [rng (s :: s2 :: L)]) by reflexivity. rewrite Ed, foldM_app, E. cbn [bind foldM]. unfold combine_level at 1.
      destruct Hq as [Q1 Q2 Q3 Q4]. rewrite Q3. unfold zlen at 1. rewrite stairs_len.
      assert (Hes : (0 < List.length (es ++ below))%nat). { destruct es; [contradiction|]. cbn. lia. }
      destruct (Z.leb_spec (Z.of_nat MAX_STACK) (Z.of_nat (List.length (es ++ below) - 1))) as [Hbad|_]. { unfold MAX_STACK in Hbad. cbn [app List.length] in Hlen. lia. }
      rewrite HLt in HL. destruct (levels_suffix pre s (s2 :: L) np rp HL ltac:(discriminate)) as [Hso Hro].
      destruct (find_path_ok r s (zlen (fl (s2 :: L)))) with (n := n) as (m & Em & Hm1 & Hm2); auto.
      { apply zlen_nonneg. } { intros k p Hk. rewrite HLt. apply fl_nth, Hk. }
      cbn [rng fst snd]. cbn [rng fst snd] in Em. rewrite Em. cbn [bind].
      assert (Hnl : zlen (k_nodes q) = zlen (es ++ below)). { apply (f_equal (@List.length _)) in Q1. rewrite map_length, rev_length, map_length in Q1. unfold zlen. rewrite Q1. reflexivity. }
      destruct (Z.leb_spec MAX_NODE (zlen (k_nodes q))) as [Hbad|_]. { rewrite Hnl in Hbad. unfold MAX_NODE, zlen in Hbad. cbn [app List.length] in Hlen. lia. }
      cbn [bind]. eexists _, _. split; [reflexivity|]. split; [|cbn [k_nodes k_rp]; eexists; rewrite Hnw, <- app_assoc; split; [reflexivity|]; split; [apply Forall_app; split; [exact Hnn|]; constructor; [reflexivity|constructor]|exact Hrp]].
      split; cbn [k_nodes k_item].
      + rewrite map_app, Q1. cbn [app map rev t_state]. rewrite Hm1, Hs. reflexivity.
      + apply Forall_app. split; [exact Q2|]. constructor; [|constructor]. cbn [t_ms]. rewrite Hm2. apply (view_good d r s n) in Hv; [apply Hv|].
        unfold allgood in Hg. rewrite HLt in Hg. apply Forall_app in Hg as [_ Hg]. apply Forall_cons_iff in Hg as [Hg _]. exact Hg.
      + rewrite Q4. cbn [app List.length Nat.sub]. destruct (List.length (es ++ below)) as [|k] eqn:Ek; [lia|]. cbn [Nat.sub stairs]. rewrite Nat.sub_0_r. f_equal. unfold zlen. rewrite Ek. f_equal; lia.
      + cbn [app]. rewrite Hnl, zlen_cons1. reflexivity.
  Qed.
  Lemma find_state_ok (N : list tnode) r : forall n k, (forall i, (k <= i < k + n)%nat -> exists nd, zread N (Z.of_nat i) = Ok nd /\ t_state nd = st (Z.of_nat i)) ->
    Z.of_nat k <= r < Z.of_nat (k + n) -> (forall i, (k <= i < k + n)%nat -> st (Z.of_nat i) = st r -> Z.of_nat i = r) -> find_state N (map (fun i => 0 + Z.of_nat i) (seq k n)) (st r) = Ok (Some r).
  Proof.
    induction n as [|n IH]; intros k H Hr Hinj; [lia|]. cbn [seq map find_state]. destruct (H k ltac:(lia)) as (nd & En & Es). rewrite Z.add_0_l, En. cbn [bind]. rewrite Es.
    destruct (Z.eqb_spec (st (Z.of_nat k)) (st r)) as [Ek|Hne]; [rewrite (Hinj k ltac:(lia) Ek); reflexivity|]. apply IH.
    - intros i Hi. apply H. lia.
    - assert (Z.of_nat k <> r) by congruence. lia.
    - intros i Hi. apply Hinj. lia.
  Qed.
End Append.

(** * A chunk *)
Section Chunk.
  Variable d : dfa.
  Hypothesis Hd : dfa_ok d.
  Hypothesis Hkind : forall a, In a (d_accept d) -> 0 <= a <= 3.
  Variable D : nat.
  Hypothesis HD : (D <= 98)%nat.
  Notation acc := (acc d).
  Notation succ := (succ d).
  Hypothesis Hz : acc 0 = 0.
  Hypothesis Hz' : forall inp, succ inp 0 = 0.
  Hypothesis Hzf : Specul.free d 0.
  Notation sinv := (sinv d D).
  Notation notout := (notout d).
  Notation R0 := (List.length (d_accept d)).
  Variables (prev buf junk : bytes) (ju : Z) (ct : option ctable).
  Notation kept0 E := (kept d junk ct (after []) E).
  Hypothesis Hnn : ~ In NUL buf.

  Lemma find_root_find st : forall rs, find_root rs st = find (fun n => t_state n =? st) rs.
  Proof. induction rs as [|n rs IH]; cbn; [reflexivity|]. rewrite IH. reflexivity. Qed.
  Lemma mrel_states ss es es' T m : mrel ss es T m -> map q_state es' = map q_state es -> mrel ss es' T m.
  Proof.
    intros [H1 H2 H3 H4 H5 H6] E. assert (El : List.length es' = List.length es) by (apply (f_equal (@List.length _)) in E; rewrite !map_length in E; exact E).
    split; auto; [rewrite E; exact H2|rewrite El; exact H4|unfold zlen; rewrite El; exact H5].
  Qed.
  Lemma closers_top : forall P l, shape l -> hd_error l <> Some OKey -> oks D l (map e_tok P) -> Forall closer P -> hd_error (after l P) <> Some OKey.
  Proof.
    induction P as [|ev P IH]; intros l Hs Hk Ho HP; [exact Hk|]. apply Forall_cons_iff in HP as [Hev HP]. cbn [map oks] in Ho. destruct Ho as [Ho1 Ho2]. rewrite after_cons.
    apply IH; auto; [exact (shape_onto D _ _ Hs Ho1)|]. destruct Hev as [Ht|[Ht|Ht]]; rewrite Ht in *; cbn [onto okt] in *; [| |exact Hk].
    all: destruct l as [|[] [|[] l]]; try discriminate; cbn in *; try discriminate.
    all: destruct l as [|[] l]; cbn in *; try discriminate; try tauto; destruct Hs as [_ [Hs _]]; discriminate.
  Qed.
  Lemma after_inner bs : hd_error bs <> Some OKey -> forall E l, inner l (map e_tok E) -> after (l ++ bs) E = after l E ++ bs.
  Proof. intros Hk. induction E as [|ev E IH]; intros l H; [reflexivity|]. cbn [map inner] in H. destruct H as [H1 H2]. rewrite !after_cons, (onto_app l bs _ Hk H1). apply IH, H2. Qed.

  (** The table lists the states the serial run is in. *)
  Definition covers (c : core) (evs : list event) : Prop := forall E1 ev E2 c1 k t l, evs = E1 ++ ev :: E2 -> run d buf E1 c = Ok c1 -> tok_key (e_tok ev) = Some k -> ct = Some t ->
    updateStateInfo junk t k = Some l -> l <> [] -> In (q_state (c_cur c1)) l.
  Lemma covers_left c a b : covers c (a ++ b) -> covers c a.
  Proof. intros H E1 ev E2 c1 k t l He. eapply H. rewrite He, <- app_assoc. reflexivity. Qed.
  Lemma covers_right c c1 a b : covers c (a ++ b) -> run d buf a c = Ok c1 -> covers c1 b.
  Proof. intros H Hr E1 ev E2 c2 k t l He Hr2. apply (H (a ++ E1) ev E2); [rewrite He, <- app_assoc; reflexivity|]. unfold run in *. rewrite foldM_app, Hr. exact Hr2. Qed.
  (** A unit goes on with the state the serial run is in. *)
  Lemma kept_state bs c c' E R st : hd_error bs <> Some OKey -> sinv bs c -> oks D bs (map e_tok E) -> inner [] (map e_tok E) -> run d buf E c = Ok c' -> covers c E -> kept0 E R st ->
    exists r, 0 <= r < Z.of_nat R /\ st r = q_state (c_cur c) /\ forall x, 0 <= x < Z.of_nat R -> st x = st r -> x = r.
  Proof.
    intros Hk Hi Ho Hin Hrun Hc Hkp. assert (Hinj : forall r x, 0 <= r < Z.of_nat R -> 0 <= x < Z.of_nat R -> st x = st r -> x = r) by (intros r x Hr Hx; apply (kept_inj _ _ _ _ _ _ _ _ _ Hkp Hx Hr)).
    assert (Hg : exists r, 0 <= r < Z.of_nat R /\ st r = q_state (c_cur c)).
    2:{ destruct Hg as (r & Hr & Es). exists r. split; [exact Hr|]. split; [exact Es|]. intros x Hx. apply Hinj; assumption. }
    clear Hinj. destruct Hkp as [[-> ->]|(t & E1 & ev & E2 & k & q & Hct & HE & Hno & Hkey & Hlook & -> & -> & _ & _ & Hne)].
    - exists (q_state (c_cur c)). split; [|reflexivity]. rewrite (R_states d Hd). pose proof (si_ok _ _ _ _ Hi) as H. apply Forall_cons_iff in H as [[H _] _]. exact H.
    - unfold run in Hrun. rewrite HE, foldM_app in Hrun. fold (run d buf E1 c) in Hrun. destruct (run d buf E1 c) as [c1|] eqn:Er; [|discriminate]. clear Hrun.
      rewrite HE, map_app in Ho, Hin. apply (oks_app D) in Ho as [Ho _].
      assert (Hin1 : inner [] (map e_tok E1)). { revert Hin. generalize (@nil opened). clear. induction E1 as [|x E1 IH]; intros l H; [exact I|]. cbn [map app inner] in *. destruct H. split; auto. }
      destruct (inner_run d Hd Hkind D HD buf bs Hk E1 [] c c1 [] (c_cur c) (c_qs c) Hi Ho Hin1 Er eq_refl eq_refl) as (_ & a' & e' & I2 & I3 & I4 & _).
      rewrite Hno in I3. destruct a'; [|discriminate]. cbn [app] in I2. injection I2 as I2 _. pose proof (Hc E1 ev E2 c1 k t q HE Er Hkey Hct Hlook Hne) as Hq. rewrite I2, I4 in Hq.
      destruct (idx_in q _ Hq) as (i & Ei). apply idx_some in Ei as [H1 H2]. exists i. auto.
  Qed.

  (** A track for the serial run at the start of a unit. *)
  Definition track_of (r : Z) (bs : list opened) (c : core) : track := mkTrack r (c_qs c) (c_tl c) bs.
  Lemma fresh_of k R st r bs c : sinv bs c -> notout c -> arrs d k bs (elts c) -> 0 <= r < Z.of_nat R -> st r = q_state (c_cur c) -> fresh_run d True R st bs (track_of r bs c) c.
  Proof.
    intros [H1 H2 H3 H4 H5] Hn Har Hr Hst. unfold Steps.notout, elts in *. apply Forall_cons_iff in H5 as [[Hv _] _]. apply Forall_cons_iff in Hn as [[Hf Hn] _].
    constructor; cbn [track_of tr_root tr_below tr_old tr_open]; auto.
    - rewrite Hst. exact Hf.
    - intros Hb. destruct bs as [|[] bs]; try discriminate Hb. cbn [arrs] in Har. destruct Har as (Har & _). rewrite Hst. unfold arr_ok.
      destruct (acc_cases d Hd Hkind _ Hv) as [E|[E|[E|E]]]; auto; congruence.
    - split; [lia|]. rewrite H2. apply nopen_le.
    - rewrite Hst. split; [reflexivity|]. intros E. congruence.
  Qed.
  Lemma dead_none R st r own tw lo bs E : shape bs -> (List.length bs <= D)%nat -> oks D bs (map e_tok E) -> runs_ok d buf True R st own tw lo bs E -> 0 <= r < Z.of_nat R -> st r = 0 -> owned own (vals tw) (lo + r) = [].
  Proof.
    intros Hs Hl Ho Hr Hrr Hst. set (e := mkElt 0 0 MInv). set (c0 := mkCore (map sy bs) (repeat e (nopen bs)) e []).
    assert (Hv : valid_state d 0) by (pose proof (ok_states d Hd); unfold valid_state; lia).
    assert (Hre : forall (Q : elt -> Prop), Q e -> Forall Q (elts c0)). { intros Q Hq. constructor; [exact Hq|]. apply Forall_forall. intros x Hx. apply repeat_spec in Hx. subst x. exact Hq. }
    assert (Hi : sinv bs c0). { split; auto; [cbn [c0 c_qs]; apply repeat_length|]. apply Hre. split; cbn; [exact Hv|discriminate]. }
    destruct (dead_run d Hd Hkind D HD Hz Hz' Hzf buf E bs c0 Hi Ho) as (c' & Ec & Et). { apply Hre. reflexivity. }
    assert (Hno : notout c0) by (apply Hre; split; [assumption|change (acc 0 <> DFA_OUTPUT_CANDIDATE); rewrite Hz; discriminate]).
    assert (Har : arrs d 0 bs (elts c0)).
    { assert (Gn : forall b n, (nopen b <= n)%nat -> arrs d 0 b (repeat e n)).
      { induction b as [|[] b IH]; intros n Hn; cbn [arrs]; auto.
        - destruct n as [|n]; [cbn in Hn; lia|]. cbn [repeat tl]. apply IH. cbn in Hn. unfold nopen. lia.
        - destruct n as [|n]; [cbn in Hn; lia|]. cbn [repeat]. change (q_state e) with 0. rewrite Hz. repeat split; [discriminate|intros E0; discriminate|]. apply IH. cbn in Hn. unfold nopen. lia. }
      change (elts c0) with (repeat e (S (nopen bs))). apply Gn. lia. }
    destruct (Hr _ c0 c' (fresh_of 0 R st r bs c0 Hi Hno Har Hrr Hst) Ec) as (X & HX & HF). cbn [track_of tr_old tr_root c0 c_tl c_cur q_state e] in *. rewrite Et in HX. cbn in HX. subst X. inversion HF. reflexivity.
  Qed.

  Lemma unit_ok k R st own lo bs P E u w c c2 m : sinv bs c -> hd_error bs <> Some OKey -> notout c -> arrs d k bs (elts c) -> mrel (map sy bs) (elts c) (c_tl c) m -> mknown k m -> oks D bs (map e_tok (P ++ E)) ->
    Forall closer P -> un_syms u = syms_of P -> inner [] (map e_tok E) -> kept0 E R st -> roots_ok R st own lo (un_roots u) -> chain_ok own (wa_tl w) -> runs_ok d buf True R st own (wa_tl w) lo (after bs P) E ->
    covers c (P ++ E) -> run d buf (P ++ E) c = Ok c2 -> zlen (c_tl c2) <= MAX_TUPLE_LIST ->
    exists c1 m1, run d buf P c = Ok c1 /\ run d buf E c1 = Ok c2 /\ sinv (after bs P) c1 /\ notout c1 /\ arrs d k (after bs P) (elts c1) /\ hd_error (after bs P) <> Some OKey /\ oks D (after bs P) (map e_tok E) /\
      merge_unit d junk ju prev buf w m u = Ok (m1, false) /\ mrel (map sy (after bs P)) (elts c1) (c_tl c2) m1 /\ mknown k m1.
  Proof.
    intros Hi Hk Hn Har Hm Hkn Ho HP Hu Hin Hkp Hroots Hch Hruns Hcov Hrun Hmax. rewrite map_app in Ho. apply (oks_app D) in Ho as [Ho1 Ho2].
    unfold run in Hrun. rewrite foldM_app in Hrun. destruct (foldM (core_step d buf) P c) as [c1|] eqn:F1; [|discriminate]. cbn [bind] in Hrun.
    assert (Hmax1 : zlen (c_tl c1) <= MAX_TUPLE_LIST). { destruct (Trunc.run_grows _ _ _ _ _ Hrun) as (lx & Elx). rewrite Elx, zlen_app in Hmax. pose proof (zlen_nonneg lx). lia. }
    destruct (closers_ok d Hd Hkind D HD prev buf buf k P bs c c1 m HP Hi Ho1 Hn Har Hm Hkn F1 Hmax1) as (m1 & F3 & F4 & Fa & F5 & F6 & F7).
    pose proof (closers_top P bs (si_shape _ _ _ _ Hi) Hk Ho1 HP) as Hk1.
    set (bs1 := after bs P) in *. change (fold_left onto (map e_tok P) bs) with bs1 in Ho2.
    destruct (kept_state bs1 c1 c2 E R st Hk1 F3 Ho2 Hin Hrun (covers_right _ _ _ _ Hcov F1) Hkp) as (r & Hr & Hst & Hinj).
    destruct (Hruns _ c1 c2 (fresh_of k R st r bs1 c1 F3 F4 Fa Hr Hst) Hrun) as (X & HX & HF). cbn [track_of tr_old tr_root] in HX, HF.
    assert (Hv : Specul.free d (q_state (c_cur c1))). { pose proof F4 as H. apply Forall_cons_iff in H as [[H _] _]. exact H. }
    destruct (find_root_in st own lo (un_roots u) (iota R) r Hroots) as (nr & Ef & Et). { apply in_iota, Hr. } { intros x Hx. apply in_iota in Hx. apply Hinj, Hx. }
    pose proof (chain_owned own (wa_tl w) (lo + r) Hch) as Hchain. destruct (ends (pos own (lo + r))) as [ff ll] eqn:Ee. cbn [fst] in Hchain.
    destruct (mrel_read _ [] (c_cur c1) (c_qs c1) _ m1 F6) as (n & En & Hs & _).
    destruct (collect_ok d D HD buf (wa_tl w) Hnn (owned own (vals (wa_tl w)) (lo + r)) X ff (S (List.length (wa_tl w))) (map sy bs1) (c_cur c1) (c_qs c1) (c_tl c1) m1) as (m2 & Ec & Hm2 & Hk2); auto.
    { pose proof (owned_len own (vals (wa_tl w)) (lo + r)) as Hol. unfold vals in Hol at 2. rewrite map_length in Hol. lia. }
    { intros E0. rewrite E0 in Hst. eapply dead_none; eauto; [exact (si_shape _ _ _ _ F3)|exact (si_room _ _ _ _ F3)]. }
    { rewrite <- zlen_app, <- HX. exact Hmax. }
    exists c1, m2. repeat (split; [first [assumption|reflexivity]|]). split; [|split; [rewrite HX; exact Hm2|exact (Hk2 k F7)]].
    unfold merge_unit. rewrite Hu, F5. cbn [bind]. rewrite (mr_cur _ _ _ _ F6). cbn [fst]. unfold elts. rewrite zlen_cons1, En. cbn [bind]. rewrite find_root_find, Hs, <- Hst, Ef, Et. cbn [bind known]. rewrite Ec. reflexivity.
  Qed.
  Lemma units_ok k R st own w b0 kid P E uf : forall segs us lo bs c c' m, segs_ok d buf junk ct True own (wa_tl w) lo bs segs us b0 kid ->
    Forall closer P -> un_syms uf = syms_of P -> inner [] (map e_tok E) -> kept0 E R st -> roots_ok R st own kid (un_roots uf) -> chain_ok own (wa_tl w) -> runs_ok d buf True R st own (wa_tl w) kid (after b0 P) E ->
    sinv bs c -> hd_error bs <> Some OKey -> notout c -> arrs d k bs (elts c) -> mrel (map sy bs) (elts c) (c_tl c) m -> mknown k m -> oks D bs (map e_tok (events_of segs ++ P ++ E)) ->
    covers c (events_of segs ++ P ++ E) -> run d buf (events_of segs ++ P ++ E) c = Ok c' -> zlen (c_tl c') <= MAX_TUPLE_LIST ->
    exists c1 m1, run d buf E c1 = Ok c' /\ covers c1 E /\ oks D (after b0 P) (map e_tok E) /\ sinv (after b0 P) c1 /\ notout c1 /\ arrs d k (after b0 P) (elts c1) /\ after bs (events_of segs ++ P) = after b0 P /\ hd_error (after b0 P) <> Some OKey /\
      merge_units d junk ju prev buf w (us ++ [uf]) m = Ok (m1, false) /\ mrel (map sy (after b0 P)) (elts c1) (c_tl c') m1 /\ mknown k m1.
  Proof.
    induction segs as [|[P0 E0] segs IH]; intros us lo bs c c' m Hsegs HP Hu Hin Hkp Hr Hch Hruns Hi Hk Hn Har Hm Hkn Ho Hcov Hrun Hmax; destruct us as [|u us]; try contradiction.
    - destruct Hsegs as [-> _]. cbn [events_of flat_map app] in *.
      destruct (unit_ok k R st own kid bs P E uf w c c' m Hi Hk Hn Har Hm Hkn Ho HP Hu Hin Hkp Hr Hch Hruns Hcov Hrun Hmax) as (c1 & m1 & G1 & G2 & G3 & G4 & Ga & G5 & G6 & G7 & G8 & G9). exists c1, m1. cbn [app merge_units].
      split; [exact G2|]. split; [exact (covers_right _ _ _ _ Hcov G1)|]. auto 15.
    - cbn [segs_ok] in Hsegs. destruct Hsegs as (HP0 & Hu0 & Hin0 & Haf0 & R1 & st1 & lo1 & _ & Hkp0 & Hr0 & Hruns0 & Hsegs). cbn [events_of flat_map fst snd] in *. fold (events_of segs) in *.
      rewrite <- (app_assoc (P0 ++ E0)) in Ho, Hrun, Hcov. unfold run in Hrun. rewrite foldM_app in Hrun. fold (run d buf (P0 ++ E0) c) in Hrun. destruct (run d buf (P0 ++ E0) c) as [c2|] eqn:E2; [|discriminate]. cbn [bind] in Hrun.
      rewrite map_app in Ho. apply (oks_app D) in Ho as [Ho1 Ho2]. destruct (Trunc.run_grows _ _ _ _ _ Hrun) as (lx & Elx).
      assert (Hmax2 : zlen (c_tl c2) <= MAX_TUPLE_LIST). { rewrite Elx, zlen_app in Hmax. pose proof (zlen_nonneg lx). lia. }
      destruct (unit_ok k R1 st1 own lo1 bs P0 E0 u w c c2 m Hi Hk Hn Har Hm Hkn Ho1 HP0 Hu0 Hin0 Hkp0 Hr0 Hch Hruns0 (covers_left _ _ _ Hcov) E2 Hmax2) as (c1 & m1 & G1 & G2 & G3 & G4 & Ga & G5 & G6 & G7 & G8 & G9).
      destruct (inner_run d Hd Hkind D HD buf (after bs P0) G5 E0 [] c1 c2 [] (c_cur c1) (c_qs c1) G3 G6 Hin0 G2 eq_refl eq_refl) as (I1 & a' & e' & I2 & I3 & I4 & _).
      rewrite Haf0 in I1, I3. cbn in I3. destruct a'; [|discriminate]. cbn [app] in I1, I2.
      assert (Hst : map q_state (elts c2) = map q_state (elts c1)). { rewrite I2. unfold elts. cbn [map]. rewrite I4. reflexivity. }
      assert (Hn2 : notout c2). { unfold Steps.notout in *. rewrite I2. unfold elts in G4. apply Forall_cons_iff in G4 as [G4 G4']. constructor; [rewrite I4; exact G4|exact G4']. }
      assert (Haf : after bs (P0 ++ E0) = after bs P0). { rewrite after_app, <- (app_nil_l (after bs P0)) at 1. rewrite (after_inner _ G5 E0 [] Hin0), Haf0. reflexivity. }
      change (fold_left onto (map e_tok (P0 ++ E0)) bs) with (after bs (P0 ++ E0)) in Ho2. rewrite Haf in Ho2.
      destruct (IH us _ (after bs P0) c2 c' m1 Hsegs HP Hu Hin Hkp Hr Hch Hruns I1 G5 Hn2 (arrs_states d k _ _ _ Hst Ga) (mrel_states _ _ _ _ _ G8 Hst) G9 Ho2 (covers_right _ _ _ _ Hcov E2) Hrun Hmax) as (c3 & m3 & J1 & Ja & Jb & J2 & J3 & Jc & Jd & J4 & J5 & J6 & J7).
      exists c3, m3. split; [exact J1|]. split; [exact Ja|]. split; [exact Jb|]. split; [exact J2|]. split; [exact J3|]. split; [exact Jc|]. split; [rewrite <- app_assoc, after_app, Haf; exact Jd|]. split; [exact J4|]. split; [|split; [exact J6|exact J7]].
      cbn [app merge_units]. destruct (us ++ [uf]) as [|u2 us2] eqn:Eu; [destruct us; discriminate|]. rewrite G7. cbn [bind]. exact J5.
  Qed.

  Lemma combine_ss : forall l bs, (List.length (l ++ bs) <= D)%nat -> combineSyntaxStack (map sy bs) (map sy l) = map sy (l ++ bs).
  Proof.
    unfold combineSyntaxStack. induction l as [|o l IH]; intros bs H; [reflexivity|]. cbn [map rev app List.length] in *. rewrite fold_left_app. cbn [fold_left]. rewrite IH by lia.
    apply TreeSem.push_ok. rewrite map_length. lia.
  Qed.
  Lemma base_view R st s0 r n : base_ok R st s0 -> view r s0 = Some n -> t_state n = st r.
  Proof.
    intros Hb Hv. apply view_in in Hv as (rs & Hin & Hr). unfold base_ok in Hb. apply (in_map (fun p : tnode * list Z => (t_state (fst p), t_pend (fst p), t_root (fst p), snd p))) in Hin. rewrite Hb in Hin.
    apply in_map_iff in Hin as (x & Ex & _). cbn in Ex. injection Ex as <- _ _ <-. destruct Hr as [->|[]]. reflexivity.
  Qed.
  Lemma last_ok R st : forall L np rp, levels R st L np rp -> exists L1 s0, L = L1 ++ [s0] /\ base_ok R st s0.
  Proof.
    induction L as [|s L IH]; intros np rp H; [contradiction|]. cbn [levels] in H. destruct H as (_ & _ & _ & H). destruct L as [|s2 L].
    - destruct H as (_ & _ & H). exists [], s. auto.
    - destruct H as (np' & rp' & _ & _ & H & _). destruct (IH _ _ H) as (L1 & s0 & E & Hb). exists (s :: L1), s0. rewrite E. auto.
  Qed.

  (** The result of a thread, merged, continues the serial run. *)
  Theorem chunk_merges k bs evs w c c' m : chunk_result d D buf junk ct True bs evs w -> sinv bs c -> hd_error bs <> Some OKey -> notout c -> arrs d k bs (elts c) -> mrel (map sy bs) (elts c) (c_tl c) m -> mknown k m -> oks D bs (map e_tok evs) ->
    covers c evs -> run d buf evs c = Ok c' -> zlen (c_tl c') <= MAX_TUPLE_LIST ->
    exists m' P E, merge_chunk d junk ju prev buf w m = Ok m' /\ mrel (map sy (after bs evs)) (elts c') (c_tl c') m' /\
      evs = P ++ E /\ inner [] (map e_tok E) /\ hd_error (after bs P) <> Some OKey /\ mknown (Nat.min k (S (nopen (after bs P)))) m'.
  Proof.
    intros (R & st & segs & P & E & l & b0 & us & uf & own & kid & L & np & rp & Hev & Hus & Hss & Hqs & Hcur & Hch & Hsegs & HP & Hu & Hr & Hkp & Hin & Hl & Haft & Hinv) Hi Hk Hn Har Hm Hkn Ho Hcov Hrun Hmax.
    assert (Hruns : runs_ok d buf True R st own (wa_tl w) kid (after b0 P) E).
    { intros n c0 c1 Hf Hr1. destruct Hinv as [_ _ _ _ _ _ HA]. destruct (HA n c1 (ex_intro _ c0 (conj Hf Hr1))) as [_ _ _ _ _ _ _ Ht]. exact Ht. }
    rewrite Hev in Ho, Hrun, Hcov.
    destruct (units_ok k R st own w b0 kid P E uf segs us 0 bs c c' m Hsegs HP Hu Hin Hkp Hr Hch Hruns Hi Hk Hn Har Hm Hkn Ho Hcov Hrun Hmax) as (c1 & m1 & G1 & Gc & Go & G2 & G3 & Ga & Gd & G4 & G5 & G6 & G7).
    destruct (kept_state (after b0 P) c1 c' E R st G4 G2 Go Hin G1 Gc Hkp) as (r & Hrr & Hst & Hinj).
    unfold merge_chunk. rewrite Hus, G5. cbn [bind]. rewrite Hqs, Hcur, Hss.
    destruct Hinv as [Hlv Hg _ Hlen Hsh Hroom HA]. destruct (HA _ c' (ex_intro _ c1 (conj (fresh_of k R st r _ c1 G2 G3 Ga Hrr Hst) G1))) as [T1 T2 T2f T3 T4 T5 T6 T7].
    cbn [track_of tr_root tr_below tr_old tr_open] in *. destruct T6 as (es & Hes & Hlr).
    destruct (last_ok _ _ _ _ _ Hlv) as (L1 & s0 & EL & Hb).
    assert (Hlen0 : List.length s0 = R). { unfold base_ok in Hb. apply (f_equal (@List.length _)) in Hb. rewrite !map_length, iota_length in Hb. exact Hb. }
    unfold combineQueryStacks. cbn [k_item QS].
    assert (Hitm : zlen (itm (tl L)) = Z.of_nat (nopen l)). { unfold zlen. rewrite itm_length. destruct L; [discriminate|]. cbn in *. lia. }
    pose proof (nopen_le l) as Hno. rewrite app_length in Hroom. destruct (Z.leb_spec (Z.of_nat MAX_STACK) (zlen (itm (tl L)))) as [Hbad|_]; [unfold MAX_STACK in Hbad; lia|].
    rewrite (mr_cur _ _ _ _ G6). cbn [fst]. change (zlen (elts c1)) with (zlen (c_cur c1 :: c_qs c1)). rewrite !zlen_cons1. destruct (mrel_read _ [] (c_cur c1) (c_qs c1) _ m1 G6) as (n & En & Hs & _). rewrite En. cbn [bind].
    assert (Eit : rng L :: itm (tl L) = itm L) by (destruct L; [discriminate|reflexivity]). rewrite Eit, EL, rev_itm. cbn [rng fl fst snd]. change (zlen (@nil tnode)) with 0.
    rewrite Hs, <- Hst. unfold zseq at 1. replace (Z.to_nat (0 + zlen s0 - 1 - 0 + 1)) with R by (unfold zlen; rewrite Hlen0; lia).
    rewrite (find_state_ok st _ r R O).
    2:{ intros i Hi'. assert (Hnth : exists p, nth_error s0 i = Some p). { destruct (nth_error s0 i) eqn:Ee; [eauto|]. apply nth_error_None in Ee. lia. }
        destruct Hnth as (p & Ep). pose proof (fl_nth L1 s0 [] i p Ep) as Hfl. cbn [fl] in Hfl. change (zlen (@nil tnode)) with 0 in Hfl. cbn [Z.to_nat Nat.add] in Hfl.
        cbn [k_nodes QS]. destruct (put_nth (tups_of own kid R) (fl (L1 ++ [s0])) _ _ Hfl) as (nd & End & (S1 & _) & _). exists nd. split; [apply zread_some; [lia|rewrite Nat2Z.id; exact End]|]. rewrite S1.
        unfold base_ok in Hb. apply (f_equal (fun x => nth_error x i)) in Hb. rewrite !nth_error_map, Ep in Hb. unfold iota in Hb. rewrite nth_error_map in Hb. rewrite (nth_error_nth' _ O) in Hb by (rewrite seq_length; lia).
        rewrite seq_nth in Hb by lia. cbn in Hb. injection Hb as Hb _ _ _. exact Hb. }
    2:{ cbn [Nat.add]. split; [cbn; lia|]. apply T1. }
    2:{ intros i Hi'. apply Hinj. lia. }
    cbn [bind].
    assert (Hq0 : qrel (elts c1) (m_qs m1) (zlen (c_qs c1), zlen (c_qs c1))). { destruct G6 as [_ A2 A3 A4 _ _]. split; auto. unfold elts. rewrite zlen_cons1. reflexivity. }
    destruct (append_ok R st own kid L np rp d r (m_qs m1) (zlen (c_qs c1), zlen (c_qs c1)) (c_qs c1) Hlv Hg L [] (topen (l ++ after b0 P)) es) as (q & cur & Eq & Hq & new & Hnw & Hnr & Hrp); auto.
    { intros E0. rewrite E0 in EL. destruct L1; discriminate. }
    { intros s1 e0 x Ex (n0 & Hv0 & Hs0). rewrite EL in Ex. apply app_inj_tail in Ex as [_ <-]. pose proof (base_view R st s0 r n0 Hb Hv0) as Hr0. destruct Hq0 as [A1 A2 A3 A4]. split; auto.
      rewrite A1. unfold elts. cbn [map]. f_equal. f_equal. congruence. }
    { rewrite <- Hes. cbn [List.length]. pose proof (f_equal (@List.length _) Hes) as Hel. rewrite app_length in Hel. rewrite (lrel_len d _ _ _ _ Hlr), Hlen in Hel. cbn [List.length] in Hel. rewrite Hel. rewrite (si_len _ _ _ _ G2).
      pose proof (nopen_le (after b0 P)). lia. }
    rewrite <- EL, Eq. cbn [bind]. eexists _, (events_of segs ++ P), E. split; [reflexivity|]. split.
    2:{ split; [rewrite Hev, app_assoc; reflexivity|]. split; [exact Hin|]. split; [rewrite Gd; exact G4|]. rewrite Gd, <- (si_len _ _ _ _ G2). change (S (List.length (c_qs c1))) with (List.length (elts c1)). rewrite <- (mrel_len _ _ _ _ G6).
        exact (known_append k m1 _ q cur new G7 Hnw Hrp Hnr). }
    destruct Hq as [A1 A2 A3 A4]. rewrite <- Hes in A1, A3, A4. split; cbn [m_ss m_qs m_cur m_tl]; auto.
    - rewrite Haft. rewrite (mr_ss _ _ _ _ G6). apply combine_ss. rewrite app_length. lia.
    - apply (mr_tl _ _ _ _ G6).
  Qed.
End Chunk.
