(** The engine of a thread that starts in the initial state does what the serial
    engine does. *)
From Verif Require Import Base Util Lexer Dfa Constraint Stream TreeSem Worker Chains WorkRep MalSpec NestSpec.
Open Scope Z_scope.

Section Single.
  Variable d : dfa.
  Hypothesis Hd : dfa_ok d.
  Hypothesis Hacc : zread (d_accept d) 1 = Ok 0.
  Hypothesis Hfree : zread (d_range d) 1 = Ok (0, 0).
  Hypothesis Hkinds : forall a, In a (d_accept d) -> 0 <= a <= 3.

  (** * The nodes of a single stack, the top first *)
  Definition node_at (i : Z) (e : elt) (t : Z * Z) : tnode :=
    mkNode (q_state e) (q_count e) (q_ms e) (Some (i - 1))
      (Some (if i =? 0 then (0, -1) else (i - 1, i - 1))) (if i =? 0 then Some t else None).
  Fixpoint nodes (es : list elt) (t : Z * Z) : list tnode :=
    match es with [] => [] | e :: es' => nodes es' t ++ [node_at (zlen es') e t] end.
  Fixpoint items (es : list elt) : list (Z * Z) :=
    match es with [] => [] | _ :: es' => (zlen es', zlen es') :: items es' end.
  (** The stacks with the given elements, the current one first. *)
  Definition Q (es : list elt) (t : Z * Z) : qstacks :=
    mkQs (nodes es t) (Some (zlen (tl es))) (Some (repeat 0 (List.length (tl es)))) (items (tl es)).
  Definition lvl (es : list elt) : Z * Z := (zlen es, zlen es).

  Lemma nodes_length es t : List.length (nodes es t) = List.length es.
  Proof. induction es as [|e es IH]; cbn; [reflexivity|]. rewrite app_length, IH. cbn. lia. Qed.
  Lemma nodes_zlen es t : zlen (nodes es t) = zlen es.
  Proof. unfold zlen. rewrite nodes_length. reflexivity. Qed.
  Lemma items_length es : List.length (items es) = List.length es.
  Proof. induction es as [|e es IH]; cbn; auto. Qed.

  Lemma nodes_read a e b t : zread (nodes (a ++ e :: b) t) (zlen b) = Ok (node_at (zlen b) e t).
  Proof.
    induction a as [|x a IH]; cbn [app nodes].
    - apply zread_some; [apply zlen_nonneg|]. rewrite <- (nodes_zlen b t). apply nth_mid.
    - rewrite zread_app1; [exact IH|]. rewrite nodes_zlen, zlen_app, zlen_cons. pose proof (zlen_nonneg a). pose proof (zlen_nonneg b). lia.
  Qed.
  Lemma upd_app1 {A} : forall (l m : list A) n x, (n < List.length l)%nat -> upd (l ++ m) n x = upd l n x ++ m.
  Proof. induction l as [|y l IH]; intros m [|n] x H; cbn in *; try lia; [reflexivity|]. f_equal. apply IH. lia. Qed.
  Lemma nodes_upd a e b t e' : upd (nodes (a ++ e :: b) t) (Z.to_nat (zlen b)) (node_at (zlen b) e' t) = nodes (a ++ e' :: b) t.
  Proof.
    induction a as [|x a IH]; cbn [app nodes].
    - rewrite <- (nodes_zlen b t) at 2. rewrite upd_mid. reflexivity.
    - rewrite upd_app1 by (rewrite nodes_length, app_length; unfold zlen; cbn; lia). rewrite IH. f_equal. f_equal.
      rewrite !zlen_app, !zlen_cons. reflexivity.
  Qed.
  Lemma nodes_root es t t' : es <> [] -> exists n, zread (nodes es t) 0 = Ok n /\ t_tup n = Some t /\
    upd (nodes es t) 0 (with_tup n t') = nodes es t'.
  Proof.
    induction es as [|e es IH]; intros H; [congruence|]. destruct es as [|e2 es].
    - cbn. eexists. split; [reflexivity|]. split; reflexivity.
    - destruct IH as (n & Hr & Ht & Hu); [discriminate|]. exists n. remember (e2 :: es) as es'. cbn [nodes].
      rewrite zread_app1, upd_app1 by (rewrite ?nodes_zlen, ?nodes_length; subst es'; rewrite ?zlen_cons; cbn; pose proof (zlen_nonneg es); lia).
      rewrite Hr, Hu. split; [reflexivity|]. split; [exact Ht|]. f_equal. f_equal. unfold node_at.
      replace (zlen es' =? 0) with false; [reflexivity|]. subst es'. rewrite zlen_cons. pose proof (zlen_nonneg es). lia.
  Qed.

  (** * Tuples *)
  Definition tup_of (l : list wtuple) : Z * Z := match l with [] => (-1, -1) | _ => (0, zlen l - 1) end.
  Definition wv (l : list tuple) : list (Z * wval) := map (fun t => (fst t, VText (snd t))) l.
  Definition emit (l : list wtuple) (st : Z) (v : wval) : res (list wtuple) :=
    l1 <- store_tuple l st v ;;
    match l with [] => Ok l1 | _ => linkTuples l1 (zlen l - 1) (zlen l1 - 1) end.

  Lemma emit_len l st v l' : emit l st v = Ok l' -> zlen l' = zlen l + 1.
  Proof.
    unfold emit. destruct (store_tuple l st v) as [l1|] eqn:E; [|discriminate]. cbn [bind].
    assert (H1 : zlen l1 = zlen l + 1).
    { unfold store_tuple in E. destruct (MAX_TUPLE_LIST <=? zlen l); [discriminate|]. destruct v as [s|x y].
      - destruct (strcopy MAX_TEXT s); [|discriminate]. injection E as <-. apply zlen_snoc.
      - injection E as <-. apply zlen_snoc. }
    destruct l as [|x l]; [injection 1 as <-; exact H1|].
    unfold linkTuples. destruct (zread l1 _); [|discriminate]. cbn [bind]. injection 1 as <-. rewrite zlen_upd. exact H1.
  Qed.
  Lemma emit_sim l st s cl : vals l = wv cl ->
    match addTuple cl st s with
    | Ok cl' => exists l', emit l st (VText s) = Ok l' /\ vals l' = wv cl'
    | UB u => emit l st (VText s) = UB u
    end.
  Proof.
    intros H. assert (Hz : zlen cl = zlen l).
    { apply (f_equal (@List.length _)) in H. unfold vals, wv in H. rewrite !map_length in H. unfold zlen. f_equal. symmetry. exact H. }
    unfold addTuple, emit, store_tuple. rewrite Hz. destruct (MAX_TUPLE_LIST <=? zlen l); [reflexivity|].
    destruct (strcopy MAX_TEXT s) as [t|u] eqn:Es; cbn [bind]; [|reflexivity].
    assert (Hv : forall x, vals (l ++ [mkT st (VText t) x]) = wv (cl ++ [(st, t)])).
    { intros x. unfold vals, wv in *. rewrite !map_app, H. reflexivity. }
    destruct l as [|x l].
    - eexists. split; [reflexivity|]. apply Hv.
    - unfold linkTuples. destruct (zread_total ((x :: l) ++ [mkT st (VText t) (-1)]) (zlen (x :: l) - 1)) as (a & Ea).
      { rewrite zlen_snoc, zlen_cons. pose proof (zlen_nonneg l). lia. }
      rewrite Ea. cbn [bind]. eexists. split; [reflexivity|]. destruct (zread_inv _ _ _ Ea) as (_ & Hn).
      rewrite (vals_upd _ _ _ _ Hn) by reflexivity. apply Hv.
  Qed.

  Lemma roots_all a e b t q : nodes (a ++ e :: b) t = k_nodes q -> k_rp q = Some (repeat 0 (List.length (a ++ b))) ->
    roots_of q (zlen b) (node_at (zlen b) e t) = Ok [0].
  Proof.
    intros _ Hr. unfold roots_of, node_at. cbn [t_root known]. destruct (Z.eqb_spec (zlen b) 0) as [E|E]; cbn [bind].
    - rewrite E. reflexivity.
    - destruct (Z.eqb_spec (zlen b - 1) (-1)) as [E1|_]; [lia|]. rewrite Hr. cbn [known bind].
      rewrite zseq_cons by lia. replace (zlen b - 1 + 1) with (zlen b) by lia. rewrite zseq_nil. cbn [mapM].
      rewrite (zread_some _ _ 0); [reflexivity|pose proof (zlen_nonneg b); lia|].
      rewrite nth_error_repeat; [reflexivity|]. rewrite app_length. unfold zlen in *. lia.
  Qed.

  (** The loop body at the level below which are the elements [b]. *)
  Definition rootb (b : list elt) : bool := zlen b =? 0.
  Lemma visit_one g a e b l : visit g (Q (a ++ e :: b) (tup_of l), l) (zlen b) =
    ('(e', out) <- g (rootb b) e ;;
     l' <- match out with Some v => emit l (q_state e) v | None => Ok l end ;;
     Ok (Q (a ++ mkElt (q_state e) (q_count e') (q_ms e') :: b) (tup_of l'), l')).
  Proof.
    unfold visit. cbn [fst k_nodes Q]. rewrite nodes_read. cbn [bind].
    unfold is_root. cbn [t_root node_at known bind].
    assert (Eb : (if zlen b =? 0 then (0, -1) else (zlen b - 1, zlen b - 1)) = (if zlen b =? 0 then 0 else zlen b - 1, if zlen b =? 0 then -1 else zlen b - 1)).
    { destruct (zlen b =? 0); reflexivity. }
    rewrite Eb. cbn [bind]. replace ((if zlen b =? 0 then -1 else zlen b - 1) =? -1) with (rootb b).
    2:{ unfold rootb. pose proof (zlen_nonneg b). destruct (Z.eqb_spec (zlen b) 0); lia. }
    replace (mkElt (t_state (node_at (zlen b) e (tup_of l))) (t_count (node_at (zlen b) e (tup_of l))) (t_ms (node_at (zlen b) e (tup_of l)))) with e by (destruct e; reflexivity).
    destruct (g (rootb b) e) as [[e' out]|]; [|reflexivity]. cbn [bind].
    assert (Hlen : List.length (tl (a ++ e :: b)) = List.length (a ++ b)) by (destruct a; cbn; rewrite ?app_length; cbn; lia).
    assert (Hitems : items (tl (a ++ mkElt (q_state e) (q_count e') (q_ms e') :: b)) = items (tl (a ++ e :: b))).
    { destruct a as [|x a]; [reflexivity|]. cbn [app tl]. clear. induction a as [|x a IH]; cbn; [reflexivity|]. rewrite IH. f_equal.
      rewrite !zlen_app, !zlen_cons. reflexivity. }
    assert (Hlen' : List.length (tl (a ++ mkElt (q_state e) (q_count e') (q_ms e') :: b)) = List.length (tl (a ++ e :: b))).
    { destruct a; cbn; rewrite ?app_length; reflexivity. }
    assert (G : forall t (l' : list wtuple),
      (n' <- zread (k_nodes (mkQs (nodes (a ++ e :: b) t) (k_np (Q (a ++ e :: b) t)) (k_rp (Q (a ++ e :: b) t)) (k_item (Q (a ++ e :: b) t)))) (zlen b) ;;
       Ok (set_node (Q (a ++ e :: b) t) (zlen b) (with_ms (with_count n' (q_count e')) (q_ms e')), l')) =
      Ok (Q (a ++ mkElt (q_state e) (q_count e') (q_ms e') :: b) t, l')).
    { intros t l'. cbn [k_nodes]. rewrite nodes_read. cbn [bind]. unfold set_node. cbn [k_nodes k_np k_rp k_item Q].
      change (with_ms (with_count (node_at (zlen b) e t) (q_count e')) (q_ms e')) with (node_at (zlen b) (mkElt (q_state e) (q_count e') (q_ms e')) t).
      rewrite nodes_upd. unfold Q. rewrite Hitems. unfold zlen. rewrite Hlen'. reflexivity. }
    destruct out as [v|]; cbn [bind]; [|exact (G _ _)].
    unfold addTupleInfo. cbn [fst k_nodes Q]. rewrite nodes_read. cbn [bind].
    rewrite (roots_all a e b (tup_of l)); [|reflexivity|cbn [k_rp Q]; rewrite Hlen; reflexivity]. cbn [bind foldM]. unfold add_for_root.
    cbn [k_nodes Q]. destruct (nodes_root (a ++ e :: b) (tup_of l) (tup_of l)) as (n & Hr & Ht & _); [destruct a; discriminate|].
    rewrite Hr. cbn [bind]. rewrite Ht. cbn [known bind].
    unfold emit. cbn [t_state node_at]. destruct (store_tuple l (q_state e) v) as [l1|] eqn:Es; cbn [bind].
    2:{ unfold tup_of. destruct l; reflexivity. }
    assert (H1 : zlen l1 = zlen l + 1).
    { unfold store_tuple in Es. destruct (MAX_TUPLE_LIST <=? zlen l); [discriminate|]. destruct v as [s|x y].
      - destruct (strcopy MAX_TEXT s); [|discriminate]. injection Es as <-. apply zlen_snoc.
      - injection Es as <-. apply zlen_snoc. }
    assert (U : forall t', set_node (Q (a ++ e :: b) (tup_of l)) 0 (with_tup n t') = Q (a ++ e :: b) t').
    { intros t'. destruct (nodes_root (a ++ e :: b) (tup_of l) t') as (n' & Hr' & _ & Hu); [destruct a; discriminate|].
      rewrite Hr in Hr'. injection Hr' as <-. unfold set_node. cbn [k_nodes k_np k_rp k_item Q Z.to_nat]. rewrite Hu. reflexivity. }
    unfold tup_of at 1. destruct l as [|x l].
    - cbn [Z.leb Z.compare]. cbn [bind]. replace (zlen l1 - 1) with 0 by (rewrite zlen_nil in H1; lia).
      change (mkQs (nodes (a ++ e :: b) (tup_of [])) (Some (zlen (tl (a ++ e :: b)))) (Some (repeat 0 (List.length (tl (a ++ e :: b))))) (items (tl (a ++ e :: b)))) with (Q (a ++ e :: b) (tup_of [])).
      rewrite U. replace (tup_of l1) with (0, 0) by (destruct l1 as [|y [|z l1]]; cbn in H1; try reflexivity; unfold zlen in H1; cbn in H1; lia). exact (G _ _).
    - cbn [Z.leb Z.compare]. destruct (linkTuples l1 (zlen (x :: l) - 1) (zlen l1 - 1)) as [l2|] eqn:El; cbn [bind]; [|reflexivity].
      assert (H2 : zlen l2 = zlen l1).
      { unfold linkTuples in El. destruct (zread l1 _); [|discriminate]. cbn [bind] in El. injection El as <-. apply zlen_upd. }
      change (mkQs (nodes (a ++ e :: b) (tup_of (x :: l))) (Some (zlen (tl (a ++ e :: b)))) (Some (repeat 0 (List.length (tl (a ++ e :: b))))) (items (tl (a ++ e :: b)))) with (Q (a ++ e :: b) (tup_of (x :: l))).
      rewrite U. replace (tup_of l2) with (0, zlen l1 - 1); [exact (G _ _)|]. unfold tup_of. destruct l2 as [|y l2]; [rewrite zlen_nil in H2; pose proof (zlen_nonneg (x :: l)); lia|]. rewrite H2. reflexivity.
  Qed.
  Lemma each_one g a e b l : each g (lvl b) (Q (a ++ e :: b) (tup_of l), l) =
    ('(e', out) <- g (rootb b) e ;;
     l' <- match out with Some v => emit l (q_state e) v | None => Ok l end ;;
     Ok (Q (a ++ mkElt (q_state e) (q_count e') (q_ms e') :: b) (tup_of l'), l')).
  Proof.
    unfold each, lvl. cbn [fst snd]. rewrite zseq_cons by lia. replace (zlen b + 1) with (zlen b + 1) by lia.
    replace (zseq (zlen b + 1) (zlen b)) with (@nil Z) by (rewrite <- (zseq_nil (zlen b + 1)); f_equal; lia).
    cbn [foldM]. rewrite visit_one. destruct (g (rootb b) e) as [[e' out]|]; [|reflexivity]. cbn [bind].
    destruct out as [v|]; [destruct (emit l (q_state e) v)|]; reflexivity.
  Qed.

  (** * Matching types and next states *)
  Definition low (b : list elt) (st : Z) : Prop := b = [] -> st = 1.
  Lemma range_of st : valid_state d st -> exists lo hi, zread (d_range d) st = Ok (lo, hi).
  Proof. intros H. destruct (zread_ok (d_range d) st) as ([lo hi] & E & _); [rewrite (ok_range d Hd); exact H|]. eauto. Qed.
  Lemma mtype b st i : valid_state d st -> low b st -> matchedType d (rootb b) st i = Ok (mt d st i).
  Proof.
    intros Hv Hl. unfold mt, matchedType, getMatchedType, getDFAAcceptType, in_range, getDFAArrayIndex. cbn [q_state q_count].
    destruct (zread_ok (d_accept d) st) as (a & Ea & _); [rewrite (ok_accept d Hd); exact Hv|]. rewrite Ea. cbn [bind].
    destruct (range_of st Hv) as (lo & hi & Er). rewrite Er. cbn [bind].
    unfold rootb. destruct (Z.eqb_spec (zlen b) 0) as [E|E].
    - assert (b = []) by (destruct b; [reflexivity|rewrite zlen_cons in E; pose proof (zlen_nonneg b); lia]). rewrite (Hl H) in *.
      rewrite Hfree in Er. injection Er as <- <-. cbn. destruct (a =? DFA_OUTPUT_CANDIDATE); reflexivity.
    - destruct (a =? DFA_OUTPUT_CANDIDATE); [|reflexivity]. cbn [bind]. destruct (_ || _); reflexivity.
  Qed.
  Lemma mt_low i : mt d 1 i = 0.
  Proof. unfold mt, getMatchedType, getDFAAcceptType. cbn [q_state]. rewrite Hacc. reflexivity. Qed.
  Lemma next_one b st i inp : valid_state d st -> low b st -> next_at d (rootb b) st i inp = Ok (nx d st i inp).
  Proof.
    intros Hv Hl. unfold nx, next_at, next_elt, in_range_at, in_range, getDFAArrayIndex. cbn [q_state q_count].
    destruct (range_of st Hv) as (lo & hi & Er). rewrite Er. cbn [bind].
    assert (Hf : (((lo =? 0) && (hi =? 0)) || (if rootb b then i <? hi else (lo <=? i) && (i <? hi))) = (((lo =? 0) && (hi =? 0)) || ((lo <=? i) && (i <? hi)))).
    { unfold rootb. destruct (Z.eqb_spec (zlen b) 0) as [E|E]; [|reflexivity].
      assert (b = []) by (destruct b; [reflexivity|rewrite zlen_cons in E; pose proof (zlen_nonneg b); lia]). rewrite (Hl H) in *.
      rewrite Hfree in Er. injection Er as <- <-. reflexivity. }
    rewrite Hf. clear Hf. destruct ((lo =? 0) && (hi =? 0) || (lo <=? i) && (i <? hi)); [|reflexivity]. destruct (dns_ok d st inp Hd Hv) as (s & Es & _). rewrite Es. reflexivity.
  Qed.
  (** The count does not matter at the lowest level. *)
  Lemma nx_low i i' inp : nx d 1 i inp = nx d 1 i' inp.
  Proof. unfold nx, next_elt, in_range, getDFAArrayIndex. cbn [q_state q_count]. rewrite Hfree. reflexivity. Qed.

  Lemma is_root_at e b t : is_root (node_at (zlen b) e t) = Ok (rootb b).
  Proof.
    unfold is_root, node_at, rootb. cbn [t_root known bind]. pose proof (zlen_nonneg b).
    destruct (Z.eqb_spec (zlen b) 0); cbn [bind]; [reflexivity|]. f_equal. lia.
  Qed.
  Lemma push_one e b t inp : valid_state d (q_state e) -> low b (q_state e) -> (List.length b < 100)%nat ->
    queryStacksPush d (Q (e :: b) t) (lvl b) inp = Ok (Q (mkElt (nx d (q_state e) (q_count e) inp) 0 MInv :: e :: b) t, lvl (e :: b)).
  Proof.
    intros Hv Hl Hb. unfold queryStacksPush. cbn [k_item Q tl].
    replace (Z.of_nat MAX_STACK <=? zlen (items b)) with false by (unfold zlen, MAX_STACK; rewrite items_length; lia).
    unfold push_targets, lvl. cbn [fst snd]. rewrite zseq_cons by lia.
    replace (zseq (zlen b + 1) (zlen b)) with (@nil Z) by (rewrite <- (zseq_nil (zlen b + 1)); f_equal; lia). cbn [foldM].
    pose proof (nodes_read [] e b t) as Er. cbn [app] in Er. cbn [k_nodes Q]. rewrite Er. cbn [bind].
    rewrite is_root_at. cbn [bind].
    change (t_state (node_at (zlen b) e t)) with (q_state e). change (t_count (node_at (zlen b) e t)) with (q_count e).
    rewrite next_one by assumption. cbn [bind].
    rewrite (roots_all [] e b t); [|reflexivity|reflexivity]. cbn [bind add_target].
    cbn [k_nodes k_item Q tl k_np k_rp known bind fold_right flat_map new_nodes fst snd app]. rewrite zlen_app, nodes_zlen.
    assert (Er1 : zlen (repeat 0 (List.length b)) = zlen b) by (unfold zlen; rewrite repeat_length; reflexivity). rewrite Er1.
    assert (Er0 : zlen (repeat 0 (List.length b) ++ [0]) = zlen b + 1) by (rewrite zlen_app; unfold zlen; rewrite repeat_length; reflexivity).
    rewrite Er0. rewrite zlen_cons. change (zlen [mkNode (nx d (q_state e) (q_count e) inp) 0 MInv (Some (zlen b + 1 - 1)) (Some (zlen b, zlen b + zlen [0] - 1)) None]) with 1.
    replace (MAX_NODE <? zlen b + 1 + 1) with false by (unfold MAX_NODE, zlen; lia).
    replace (MAX_NODE <? zlen b + (1 + 0)) with false by (unfold MAX_NODE, zlen; lia).
    replace (MAX_NODE <? zlen b + 1) with false by (unfold MAX_NODE, zlen; lia). cbn [orb].
    f_equal. f_equal; [|f_equal; lia]. unfold Q. cbn [tl nodes items List.length]. rewrite zlen_cons. f_equal.
    - f_equal. unfold node_at. cbn [q_state q_count q_ms]. replace (zlen (e :: b)) with (zlen b + 1) by (rewrite zlen_cons; reflexivity).
      pose proof (zlen_nonneg b). replace (zlen b + 1 =? 0) with false by lia. change (zlen [0]) with 1. repeat f_equal; lia.
    - f_equal. rewrite zlen_cons. lia.
    - f_equal. cbn [repeat]. symmetry. apply repeat_cons.
  Qed.

  Lemma pop_one f e b t : queryStacksPop (Q (f :: e :: b) t) = Ok (Q (e :: b) t, lvl b).
  Proof.
    unfold queryStacksPop. cbn [k_item Q tl items]. cbn [snd k_nodes Q].
    pose proof (nodes_read [f] e b t) as Er. cbn [app] in Er. cbn [tl] in *. rewrite Er. cbn [bind t_pend t_root node_at k_rp Q].
    f_equal. f_equal. unfold Q. cbn [tl]. f_equal.
    - cbn [nodes]. rewrite <- app_assoc. replace (Z.to_nat (zlen b + 1)) with (List.length (nodes b t ++ [node_at (zlen b) e t])).
      2:{ rewrite app_length, nodes_length. cbn. unfold zlen. lia. }
      rewrite app_assoc, firstn_app, Nat.sub_diag, firstn_all, firstn_O, app_nil_r. reflexivity.
    - f_equal. lia.
    - unfold node_at. pose proof (zlen_nonneg b) as H0. destruct (Z.eqb_spec (zlen b) 0) as [E|E].
      + assert (b = []) by (destruct b; [reflexivity|rewrite zlen_cons in E; pose proof (zlen_nonneg b); lia]). subst b. reflexivity.
      + f_equal. replace (Z.to_nat (zlen b - 1 + 1)) with (List.length b) by (unfold zlen; lia). cbn [List.length].
        replace (S (List.length b)) with (List.length b + 1)%nat by lia. rewrite repeat_app, firstn_app, repeat_length, Nat.sub_diag, firstn_O, app_nil_r.
        rewrite <- (repeat_length 0 (List.length b)) at 1. apply firstn_all.
  Qed.

  (** * The relation between the two engines *)
  Definition sy (o : opened) : sym := match o with OKey => SKY | OBrace => SLCB | OBracket => SLB end.
  Definition ms_rel (e f : elt) : Prop := mt d (q_state e) (q_count e) = DFA_OUTPUT_CANDIDATE -> q_ms e = q_ms f.
  Record erel (below : list elt) (e f : elt) : Prop := mkErel {
    er_state : q_state f = q_state e;
    er_valid : valid_state d (q_state e);
    er_low   : low below (q_state e);
    er_count : below <> [] -> q_count f = q_count e;
    er_ms1   : q_ms e <> MUninit;
    er_ms2   : q_ms f <> MUninit
  }.
  Fixpoint stk (cs es : list elt) : Prop :=
    match cs, es with
    | [], [] => True
    | e :: cs', f :: es' => erel es' e f /\ ms_rel e f /\ stk cs' es'
    | _, _ => False
    end.
  Definition nopen (l : list opened) : nat := List.length (filter (fun o => match o with OBrace => false | _ => true end) l).
  Fixpoint shape (l : list opened) : Prop :=
    match l with
    | [] => True
    | OKey :: l' => value_here l' = false /\ shape l'
    | _ :: l' => value_here l' = true /\ shape l'
    end.
  Definition R (l : list opened) (c : core) (w : wstate) : Prop := exists f fs tw sh u,
    c_ss c = map sy l /\ w = mkW (map sy l) sh (Q (f :: fs) (tup_of tw)) (lvl fs) tw [] u /\
    vals tw = wv (c_tl c) /\ erel fs (c_cur c) f /\ stk (c_qs c) fs /\
    (value_here l = false -> ms_rel (c_cur c) f) /\
    List.length fs = nopen l /\ (List.length l <= 100)%nat /\ shape l /\ (sh = [] \/ sh = [SLB]).

  Lemma erel_mt fs e f : erel fs e f -> mt d (q_state f) (q_count f) = mt d (q_state e) (q_count e).
  Proof.
    intros [H1 H2 H3 H4 _ _]. rewrite H1. destruct fs as [|x fs]; [rewrite (H3 eq_refl), !mt_low; reflexivity|]. rewrite H4 by discriminate. reflexivity.
  Qed.
  Lemma erel_nx fs e f inp : erel fs e f -> nx d (q_state f) (q_count f) inp = nx d (q_state e) (q_count e) inp.
  Proof.
    intros [H1 H2 H3 H4 _ _]. rewrite H1. destruct fs as [|x fs]; [rewrite (H3 eq_refl); apply nx_low|]. rewrite H4 by discriminate. reflexivity.
  Qed.
  Lemma erel_type fs e f : erel fs e f -> matchedType d (rootb fs) (q_state f) (q_count f) = Ok (mt d (q_state e) (q_count e)).
  Proof.
    intros H. rewrite mtype; [rewrite (erel_mt fs e f H); reflexivity| |]; destruct H as [H1 H2 H3 H4 _ _]; rewrite H1; assumption.
  Qed.
  Lemma gmt_elt e : valid_state d (q_state e) -> getMatchedType d e = Ok (mt d (q_state e) (q_count e)).
  Proof. intros H. destruct e as [s i m]. apply gmt_ok; assumption. Qed.
  Lemma next_elt_ok e inp : valid_state d (q_state e) ->
    next_elt d e inp = Ok (mkElt (nx d (q_state e) (q_count e) inp) 0 MInv) /\ valid_state d (nx d (q_state e) (q_count e) inp).
  Proof. intros H. destruct e as [s i m]. apply next_ok; assumption. Qed.

  Lemma erel_ms fs e f m m' : erel fs e f -> m <> MUninit -> m' <> MUninit -> erel fs (set_ms e m) (set_ms f m').
  Proof. intros [H1 H2 H3 H4 _ _] Hm Hm'. constructor; cbn; auto. Qed.
  Lemma erel_incr fs e f : erel fs e f -> erel fs (incr e) (incr f).
  Proof. intros [H1 H2 H3 H4 H5 H6]. constructor; cbn; auto. intros H. rewrite H4 by exact H. reflexivity. Qed.
  Lemma erel_incr_r fs e f : fs = [] -> erel fs e f -> erel fs e (incr f).
  Proof. intros -> [H1 H2 H3 H4 H5 H6]. constructor; cbn; auto. intros H; congruence. Qed.

  Lemma loop_top g ss sh f fs tw us u : loop_cur g (mkW ss sh (Q (f :: fs) (tup_of tw)) (lvl fs) tw us u) =
    ('(e', out) <- g (rootb fs) f ;;
     tw' <- match out with Some v => emit tw (q_state f) v | None => Ok tw end ;;
     Ok (mkW ss sh (Q (mkElt (q_state f) (q_count e') (q_ms e') :: fs) (tup_of tw')) (lvl fs) tw' us u)).
  Proof.
    unfold loop_cur, loop. cbn [ws_qs ws_cur ws_tl]. pose proof (each_one g [] f fs tw) as E. cbn [app] in E. rewrite E.
    destruct (g (rootb fs) f) as [[e' out]|]; [|reflexivity]. cbn [bind]. destruct out as [v|]; [destruct (emit tw (q_state f) v)|]; reflexivity.
  Qed.
  Lemma loop_below g ss sh f0 f fs tw us u : loop g (lvl fs) (mkW ss sh (Q (f0 :: f :: fs) (tup_of tw)) (lvl (f :: fs)) tw us u) =
    ('(e', out) <- g (rootb fs) f ;;
     tw' <- match out with Some v => emit tw (q_state f) v | None => Ok tw end ;;
     Ok (mkW ss sh (Q (f0 :: mkElt (q_state f) (q_count e') (q_ms e') :: fs) (tup_of tw')) (lvl (mkElt (q_state f) (q_count e') (q_ms e') :: fs)) tw' us u)).
  Proof.
    unfold loop. cbn [ws_qs ws_cur ws_tl]. pose proof (each_one g [f0] f fs tw) as E. cbn [app] in E. rewrite E.
    destruct (g (rootb fs) f) as [[e' out]|]; [|reflexivity]. cbn [bind]. destruct out as [v|]; [destruct (emit tw (q_state f) v)|]; cbn [bind]; unfold with_loop, lvl; cbn [ws_ss ws_shadow ws_cur ws_units ws_unit fst snd]; rewrite ?zlen_cons; reflexivity.
  Qed.
  Lemma pop_w ss sh f0 f fs t tw us u : pop_query (mkW ss sh (Q (f0 :: f :: fs) t) (lvl (f :: fs)) tw us u) = Ok (mkW ss sh (Q (f :: fs) t) (lvl fs) tw us u).
  Proof. unfold pop_query. cbn [ws_qs]. rewrite pop_one. reflexivity. Qed.

  Definition sim (l : list opened) (r : res core) (r' : res wstate) : Prop :=
    match r with
    | Ok c => exists w, r' = Ok w /\ R l c w
    | UB u => r' = UB u
    end.
  Lemma sim_emit l cl tw st s k k' : vals tw = wv cl ->
    (forall cl' tw', vals tw' = wv cl' -> sim l (k cl') (k' tw')) ->
    sim l (cl' <- addTuple cl st s ;; k cl') (tw' <- emit tw st (VText s) ;; k' tw').
  Proof.
    intros H Hk. pose proof (emit_sim tw st s cl H) as E. destruct (addTuple cl st s) as [cl'|u]; cbn [bind].
    - destruct E as (tw' & -> & Hv). cbn [bind]. apply Hk, Hv.
    - rewrite E. reflexivity.
  Qed.

  Definition onto (l : list opened) (t : token) : list opened :=
    match t with
    | TLCB => OBrace :: l | TLB => OBracket :: l | TKY _ => OKey :: l
    | TPRI _ => value_done l
    | TRCB | TRB => value_done (tl l)
    | TCOM | TEND => l
    end.

  Variables (junk buf : bytes).
  Notation wstep := (worker_step d true (Some [1]) None junk buf).

  Lemma elt_eta (e : elt) : mkElt (q_state e) (q_count e) (q_ms e) = e.
  Proof. destruct e; reflexivity. Qed.
  Lemma room_push l : room l = true -> forall x, push (map sy l) x = x :: map sy l.
  Proof. unfold room, push, MAX_STACK. intros H x. rewrite map_length, H. reflexivity. Qed.
  Lemma nopen_le l : (nopen l <= List.length l)%nat.
  Proof. unfold nopen. induction l as [|[] l IH]; cbn; lia. Qed.
  Lemma selects0 m : selects true m = (m =? DFA_OUTPUT_CANDIDATE).
  Proof. unfold selects. cbn. apply orb_false_r. Qed.

  Lemma step_lcb ev rest l c w : R l c w -> e_tok ev = TLCB -> value_here l = true -> room l = true ->
    sim (OBrace :: l) (core_step d buf c ev) (wstep ev rest w).
  Proof.
    intros (f & fs & tw & sh & u & Hss & -> & Htl & Her & Hst & Hms & Hn & Hlen & Hsh & Hshadow) Et Hv Hr.
    unfold core_step, worker_step. rewrite Et. unfold do_lcb, w_lcb. rewrite Hss, (room_push l Hr).
    rewrite (gmt_elt _ (er_valid _ _ _ Her)). cbn [bind]. unfold with_unit, with_ss. cbn [ws_ss ws_shadow ws_qs ws_cur ws_tl ws_units ws_unit].
    rewrite (room_push l Hr). rewrite loop_top. unfold on_lcb. rewrite (erel_type _ _ _ Her). cbn [bind]. rewrite selects0.
    assert (G : forall e f' cl tw' u', erel fs e f' -> ms_rel e f' -> vals tw' = wv cl ->
      R (OBrace :: l) (mkCore (SLCB :: map sy l) (c_qs c) e cl) (mkW (SLCB :: map sy l) sh (Q (f' :: fs) (tup_of tw')) (lvl fs) tw' [] u')).
    { intros e f' cl tw' u' H1 H2 H3. exists f', fs, tw', sh, u'. cbn [c_ss c_qs c_cur c_tl map sy]. repeat (split; [first [reflexivity|assumption]|]).
      unfold room in Hr. cbn [List.length]. apply Nat.ltb_lt in Hr. repeat split; auto; try lia. }
    destruct (Z.eqb_spec (mt d (q_state (c_cur c)) (q_count (c_cur c))) DFA_OUTPUT_CANDIDATE) as [Eo|Eo].
    - cbn [bind sim]. eexists. split; [reflexivity|]. cbn [q_count q_ms set_ms].
      apply (G (set_ms (c_cur c) (MAt (e_next ev - 1))) (set_ms f (MAt (e_next ev - 1)))); [|intros _; reflexivity|exact Htl].
      apply erel_ms; [exact Her|discriminate|discriminate].
    - assert (M : ms_rel (c_cur c) f) by (intros H; contradiction).
      destruct (mt d (q_state (c_cur c)) (q_count (c_cur c)) =? DFA_PREDICATE); [|destruct (mt d (q_state (c_cur c)) (q_count (c_cur c)) =? DFA_CONDITION)]; cbn [bind].
      + rewrite (er_state _ _ _ Her). apply sim_emit; [exact Htl|]. intros cl' tw' Hv'. eexists. split; [reflexivity|]. rewrite <- (er_state _ _ _ Her), elt_eta. apply G; assumption.
      + rewrite (er_state _ _ _ Her). apply sim_emit; [exact Htl|]. intros cl' tw' Hv'. eexists. split; [reflexivity|]. rewrite <- (er_state _ _ _ Her), elt_eta. apply G; assumption.
      + eexists. split; [reflexivity|]. rewrite elt_eta. apply G; assumption.
  Qed.

  Lemma step_lb ev rest l c w : R l c w -> e_tok ev = TLB -> value_here l = true -> room l = true ->
    sim (OBracket :: l) (core_step d buf c ev) (wstep ev rest w).
  Proof.
    intros (f & fs & tw & sh & u & Hss & -> & Htl & Her & Hst & Hms & Hn & Hlen & Hsh & Hshadow) Et Hv Hr.
    unfold core_step, worker_step. rewrite Et. unfold do_lb, w_lb. rewrite Hss, (room_push l Hr).
    rewrite (gmt_elt _ (er_valid _ _ _ Her)). cbn [bind]. unfold prune. cbn [bind]. unfold with_unit. cbn [ws_ss ws_shadow ws_qs ws_cur ws_tl ws_units ws_unit].
    rewrite loop_top. unfold on_lb. rewrite (erel_type _ _ _ Her). cbn [bind]. rewrite selects0.
    pose proof (nopen_le l) as Hno. unfold room in Hr. apply Nat.ltb_lt in Hr.
    assert (Hcs : List.length (c_qs c) = List.length fs).
    { clear -Hst. revert fs Hst. induction (c_qs c) as [|e cs IH]; intros [|f fs] H; cbn in *; try tauto. destruct H as (_ & _ & H). rewrite (IH _ H). reflexivity. }
    assert (G : forall e f' cl tw', erel fs e f' -> ms_rel e f' -> vals tw' = wv cl ->
      sim (OBracket :: l) (n <- next_elt d e None ;; Ok (mkCore (SLB :: map sy l) (push (c_qs c) e) n cl))
        (qc <- queryStacksPush d (Q (f' :: fs) (tup_of tw')) (lvl fs) None ;;
         Ok (with_qs (with_ss (mkW (map sy l) sh (Q (f' :: fs) (tup_of tw')) (lvl fs) tw' [] (started u (e_start ev - 1))) (push (map sy l) SLB)) qc))).
    { intros e f' cl tw' H1 H2 H3. destruct (next_elt_ok e None (er_valid _ _ _ H1)) as (En & Hnv). rewrite En. cbn [bind].
      rewrite push_one; [|rewrite (er_state _ _ _ H1); apply (er_valid _ _ _ H1)|rewrite (er_state _ _ _ H1); apply (er_low _ _ _ H1)|lia].
      cbn [bind sim]. eexists. split; [reflexivity|]. unfold with_qs, with_ss. cbn [ws_ss ws_shadow ws_qs ws_cur ws_tl ws_units ws_unit fst snd].
      rewrite room_push by (unfold room; apply Nat.ltb_lt; exact Hr). rewrite (erel_nx _ _ _ None H1).
      exists (mkElt (nx d (q_state e) (q_count e) None) 0 MInv), (f' :: fs), tw', sh, (started u (e_start ev - 1)).
      cbn [c_ss c_qs c_cur c_tl map sy]. repeat (split; [first [reflexivity|assumption]|]).
      split; [constructor; cbn; auto; try discriminate; intros Hx; discriminate Hx|].
      split. { unfold push, MAX_STACK. replace (Nat.ltb (List.length (c_qs c)) 100) with true by (symmetry; apply Nat.ltb_lt; lia). cbn. auto. }
      split; [discriminate|]. unfold nopen in *. cbn. repeat split; auto; lia. }
    destruct (Z.eqb_spec (mt d (q_state (c_cur c)) (q_count (c_cur c))) DFA_OUTPUT_CANDIDATE) as [Eo|Eo].
    - cbn [bind ws_qs ws_cur]. cbn [q_count q_ms set_ms].
      apply (G (set_ms (c_cur c) (MAt (e_next ev - 1))) (set_ms f (MAt (e_next ev - 1)))); [|intros _; reflexivity|exact Htl].
      apply erel_ms; [exact Her|discriminate|discriminate].
    - assert (M : ms_rel (c_cur c) f) by (intros H; contradiction).
      destruct (mt d (q_state (c_cur c)) (q_count (c_cur c)) =? DFA_CONDITION); cbn [bind].
      + rewrite (er_state _ _ _ Her). pose proof (emit_sim tw (q_state (c_cur c)) [] (c_tl c) Htl) as E.
        destruct (addTuple (c_tl c) (q_state (c_cur c)) []) as [cl'|ub]; cbn [bind]; [|rewrite E; reflexivity].
        destruct E as (tw' & -> & Hv'). cbn [bind ws_qs ws_cur]. rewrite <- (er_state _ _ _ Her), elt_eta. apply G; assumption.
      + cbn [ws_qs ws_cur]. rewrite elt_eta. apply G; assumption.
  Qed.

  Lemma step_ky ev rest l c w k : R l c w -> e_tok ev = TKY k -> value_here l = false -> room l = true ->
    sim (OKey :: l) (core_step d buf c ev) (wstep ev rest w).
  Proof.
    intros (f & fs & tw & sh & u & Hss & -> & Htl & Her & Hst & Hms & Hn & Hlen & Hsh & Hshadow) Et Hv Hr.
    unfold core_step, worker_step. rewrite Et. unfold do_ky, w_ky. rewrite Hss, (room_push l Hr).
    pose proof (nopen_le l) as Hno. pose proof Hr as Hr'. unfold room in Hr'. apply Nat.ltb_lt in Hr'.
    assert (Hcs : List.length (c_qs c) = List.length fs).
    { clear -Hst. revert fs Hst. induction (c_qs c) as [|e cs IH]; intros [|f fs] H; cbn in *; try tauto. destruct H as (_ & _ & H). rewrite (IH _ H). reflexivity. }
    destruct (next_elt_ok (c_cur c) (Some k) (er_valid _ _ _ Her)) as (En & Hnv). rewrite En. cbn [bind].
    unfold prune. cbn [ws_qs with_unit].
    match goal with |- sim _ _ (bind (match ?x with _ => _ end) _) => replace (match x with [] => _ | _ => _ end) with (Ok (with_unit (mkW (map sy l) sh (Q (f :: fs) (tup_of tw)) (lvl fs) tw [] u) (started u (e_start ev - 1)))) by (destruct x; reflexivity) end.
    cbn [bind]. unfold with_unit. cbn [ws_ss ws_shadow ws_qs ws_cur ws_tl ws_units ws_unit].
    rewrite push_one; [|rewrite (er_state _ _ _ Her); apply (er_valid _ _ _ Her)|rewrite (er_state _ _ _ Her); apply (er_low _ _ _ Her)|lia].
    cbn [bind sim]. eexists. split; [reflexivity|]. unfold with_qs, with_ss. cbn [ws_ss ws_shadow ws_qs ws_cur ws_tl ws_units ws_unit fst snd].
    rewrite (room_push l Hr). rewrite (erel_nx _ _ _ (Some k) Her).
    exists (mkElt (nx d (q_state (c_cur c)) (q_count (c_cur c)) (Some k)) 0 MInv), (f :: fs), tw, sh, (started u (e_start ev - 1)).
    cbn [c_ss c_qs c_cur c_tl map sy]. repeat (split; [first [reflexivity|assumption]|]).
    split; [constructor; cbn; auto; try discriminate; intros Hx; discriminate Hx|].
    split. { unfold push, MAX_STACK. replace (Nat.ltb (List.length (c_qs c)) 100) with true by (symmetry; apply Nat.ltb_lt; lia). cbn. auto. }
    split; [discriminate|]. unfold nopen in *. cbn. repeat split; auto; lia.
  Qed.

  (** After a value at the top level comes another value or the end. *)
  Lemma top_value rest t : (t = TRCB \/ t = TRB \/ exists s, t = TPRI s) -> well_nested [] (map e_tok rest) = true ->
    forall n, (n <= 1)%nat -> (match t with TPRI _ => True | _ => n = 1%nat end) ->
    let '(t1, t2) := look rest in inference t t1 t2 n = [] \/ inference t t1 t2 n = [SLB].
  Proof.
    intros Ht Hw n Hn1 Hn. unfold look. destruct rest as [|e1 [|e2 rest]]; cbn [map] in Hw.
    - destruct Ht as [->|[->|(s & ->)]]; cbn in *; subst; auto.
    - destruct (e_tok e1); cbn in Hw; try discriminate; destruct Ht as [->|[->|(s' & ->)]]; cbn in *; subst; auto.
    - destruct (e_tok e1) eqn:E1; cbn in Hw; try discriminate; try (destruct Ht as [->|[->|(s' & ->)]]; cbn in *; subst; auto; fail).
      destruct (e_tok e2); cbn in Hw; try discriminate; destruct Ht as [->|[->|(s' & ->)]]; cbn in *; subst; auto.
  Qed.

  Lemma step_pri ev rest l c w s : R l c w -> e_tok ev = TPRI s -> value_here l = true -> well_nested (value_done l) (map e_tok rest) = true ->
    sim (value_done l) (core_step d buf c ev) (wstep ev rest w).
  Proof.
    intros (f & fs & tw & sh & u & Hss & -> & Htl & Her & Hst & Hms & Hn & Hlen & Hsh & Hshadow) Et Hv Hw.
    unfold core_step, worker_step. rewrite Et. unfold do_pri, w_pri. rewrite Hss. cbn [ws_ss].
    destruct l as [|o l]; cbn [map ss_top nth_error].
    - cbn in Hn. destruct fs; [|discriminate].
      cbn [value_done] in Hw. assert (Hi : forall s', let w0 := infer (TPRI s') rest (mkW [] sh (Q [f] (tup_of tw)) (lvl []) tw [] u) in exists sh', w0 = mkW [] sh' (Q [f] (tup_of tw)) (lvl []) tw [] u /\ (sh' = [SLB] \/ sh' = [])).
      { intros s'. cbn zeta. unfold infer. cbn [ws_shadow ws_ss]. destruct Hshadow as [->| ->].
        - pose proof (top_value rest (TPRI s') ltac:(eauto) Hw 0 ltac:(lia) I) as H. cbn [List.length]. destruct (look rest) as [t1 t2]. unfold with_shadow. cbn. eexists. split; [reflexivity|]. tauto.
        - eexists. split; [reflexivity|]. auto. }
      set (s1 := match sh with [] => let '(t1, t2) := look rest in clobber (clobber s t1) t2 | _ => s end) in *.
      cbn [ws_shadow]. fold s1. destruct (Hi s1) as (sh' & Es & Hsh'). cbn zeta in Es. rewrite Es. cbn [ws_shadow].
      assert (G : forall f' u', erel [] (c_cur c) f' -> R [] c (mkW [] sh' (Q [f'] (tup_of tw)) (lvl []) tw [] u')).
      { intros f' u' H1. exists f', [], tw, sh', u'. cbn [map]. repeat (split; [first [reflexivity|assumption|discriminate]|]). tauto. }
      destruct Hsh' as [->| ->]; cbn [ss_top nth_error].
      + unfold with_unit. cbn [ws_ss ws_shadow ws_qs ws_cur ws_tl ws_units ws_unit]. rewrite loop_top. unfold on_pri. rewrite (erel_type _ _ _ Her).
        cbn [bind]. rewrite selects0. rewrite (er_low _ _ _ Her eq_refl), mt_low. cbn [Z.eqb Z.compare DFA_OUTPUT_CANDIDATE DFA_CONDITION orb]. cbn. eexists. split; [reflexivity|].
        apply (G (incr f)). apply erel_incr_r; [reflexivity|exact Her].
      + cbn. eexists. split; [reflexivity|]. apply G. exact Her.
    - rewrite (gmt_elt _ (er_valid _ _ _ Her)). cbn [bind]. rewrite loop_top. unfold on_pri. rewrite (erel_type _ _ _ Her). cbn [bind]. rewrite selects0.
      assert (G : forall cl tw', vals tw' = wv cl ->
         sim (value_done (o :: l))
           match sy o with
           | SKY => let '(e', qs') := qs_pop (c_qs c) in Ok (mkCore (map sy l) qs' e' cl)
           | SLB => Ok (mkCore (sy o :: map sy l) (c_qs c) (incr (c_cur c)) cl)
           | SLCB => Ok (mkCore (sy o :: map sy l) (c_qs c) (c_cur c) cl)
           end
           (let w := mkW (sy o :: map sy l) sh (Q ((match sy o with SLB => incr f | _ => f end) :: fs) (tup_of tw')) (lvl fs) tw' [] u in
            match sy o with
            | SKY => pop_query (with_ss w (ss_pop (ws_ss w)))
            | _ => Ok w
            end)).
      { intros cl tw' Hv'. destruct o; cbn [sy value_done].
        - cbn in Hn. destruct fs as [|f1 fs]; [discriminate|]. destruct (c_qs c) as [|e1 cs] eqn:Ec; [destruct Hst|]. destruct Hst as (He1 & Hm1 & Hst).
          cbn [qs_pop]. unfold with_ss, ss_pop. cbn [ws_ss ws_shadow ws_qs ws_cur ws_tl ws_units ws_unit tl]. cbn zeta. rewrite pop_w.
          eexists. split; [reflexivity|]. exists f1, fs, tw', sh, u. cbn [c_ss c_qs c_cur c_tl]. cbn in Hlen, Hsh. injection Hn as Hn. unfold nopen.
          repeat (split; [first [reflexivity|assumption|lia]|]). split; [intros _; exact Hm1|]. repeat split; auto; try lia; try tauto.
        - discriminate.
        - cbn zeta. eexists. split; [reflexivity|]. exists (incr f), fs, tw', sh, u. cbn [c_ss c_qs c_cur c_tl]. repeat (split; [first [reflexivity|assumption|lia|discriminate|apply erel_incr; assumption]|]). assumption. }
      assert (Ef : mkElt (q_state f) (q_count (if match sy o with SLB => true | _ => false end then incr f else f)) (q_ms (if match sy o with SLB => true | _ => false end then incr f else f)) = match sy o with SLB => incr f | _ => f end).
      { destruct (sy o); cbn; destruct f; reflexivity. }
      destruct ((mt d (q_state (c_cur c)) (q_count (c_cur c)) =? DFA_OUTPUT_CANDIDATE) || (mt d (q_state (c_cur c)) (q_count (c_cur c)) =? DFA_CONDITION)).
      + rewrite (er_state _ _ _ Her). pose proof (emit_sim tw (q_state (c_cur c)) s (c_tl c) Htl) as E.
        destruct (addTuple (c_tl c) (q_state (c_cur c)) s) as [cl'|ub]; cbn [bind]; [|rewrite E; reflexivity].
        destruct E as (tw' & -> & Hv'). cbn [bind]. rewrite <- (er_state _ _ _ Her), Ef. apply (G cl' tw' Hv').
      + cbn [bind]. rewrite Ef. apply (G _ _ Htl).
  Qed.

  Lemma mt_kind st i : valid_state d st -> mt d st i <> DFA_INCOMPLETE_INDEX.
  Proof.
    intros Hv. unfold mt, getMatchedType, getDFAAcceptType. cbn [q_state].
    destruct (zread_ok (d_accept d) st) as (a & -> & Ha); [rewrite (ok_accept d Hd); exact Hv|]. cbn [bind]. apply Hkinds in Ha.
    destruct (Z.eqb_spec a DFA_OUTPUT_CANDIDATE) as [->|_].
    - destruct (in_range d _) as [[]|]; cbn; discriminate.
    - cbn. unfold DFA_INCOMPLETE_INDEX. lia.
  Qed.

  Lemma close_ok rb next fs e f cl tw : erel fs e f -> ms_rel e f -> vals tw = wv cl ->
    match emit_close d buf e next cl with
    | Ok (cl', b) => exists tw', vals tw' = wv cl' /\
        forall K : elt -> list wtuple -> wstate,
          ('(e', out) <- on_close d true rb buf next (rootb fs) f ;;
           tw1 <- match out with Some v => emit tw (q_state f) v | None => Ok tw end ;;
           Ok (K (mkElt (q_state f) (q_count e') (q_ms e')) tw1)) = Ok (K (if b : bool then set_ms f MInv else f) tw')
    | UB u => forall K : elt -> list wtuple -> wstate,
          ('(e', out) <- on_close d true rb buf next (rootb fs) f ;;
           tw1 <- match out with Some v => emit tw (q_state f) v | None => Ok tw end ;;
           Ok (K (mkElt (q_state f) (q_count e') (q_ms e')) tw1)) = UB u
    end.
  Proof.
    intros Her Hm Htl. unfold emit_close, on_close.
    assert (Hns : forall m, m <> MUninit -> exists z, ms_set m = Ok z) by (intros [| |] H; cbn; eauto; congruence).
    destruct (Hns _ (er_ms1 _ _ _ Her)) as (z1 & Ez1). destruct (Hns _ (er_ms2 _ _ _ Her)) as (z2 & Ez2). rewrite Ez1, Ez2. cbn [bind].
    destruct (Z.eqb_spec (mt d (q_state e) (q_count e)) DFA_OUTPUT_CANDIDATE) as [Eo|Eo].
    - rewrite (Hm Eo) in Ez1. rewrite Ez1 in Ez2. injection Ez2 as <-. destruct z1 as [start|].
      + rewrite (gmt_elt _ (er_valid _ _ _ Her)), (erel_type _ _ _ Her). cbn [bind]. rewrite selects0, Eo. cbn [Z.eqb Pos.eqb DFA_OUTPUT_CANDIDATE].
        destruct (substring buf 0 start next) as [txt|u]; cbn [bind]; [|reflexivity]. rewrite (er_state _ _ _ Her).
        pose proof (emit_sim tw (q_state e) txt cl Htl) as E. destruct (addTuple cl (q_state e) txt) as [cl'|u]; cbn [bind].
        * destruct E as (tw' & E & Hv). exists tw'. split; [exact Hv|]. intros K. rewrite E. cbn [bind]. rewrite <- (er_state _ _ _ Her). reflexivity.
        * intros K. rewrite E. reflexivity.
      + exists tw. split; [exact Htl|]. intros K. cbn [bind]. rewrite elt_eta. reflexivity.
    - assert (E1 : match z1 with
          | None => Ok (cl, false)
          | Some start => m <- getMatchedType d e ;; if m =? DFA_OUTPUT_CANDIDATE then txt <- substring buf 0 start next ;; tl' <- addTuple cl (q_state e) txt ;; Ok (tl', true) else Ok (cl, false)
          end = Ok (cl, false)).
      { destruct z1; [|reflexivity]. rewrite (gmt_elt _ (er_valid _ _ _ Her)). cbn [bind]. apply Z.eqb_neq in Eo. rewrite Eo. reflexivity. }
      rewrite E1. exists tw. split; [exact Htl|]. intros K. destruct z2; [|cbn [bind]; rewrite elt_eta; reflexivity].
      rewrite (erel_type _ _ _ Her). cbn [bind]. rewrite selects0. apply Z.eqb_neq in Eo. rewrite Eo.
      pose proof (mt_kind (q_state e) (q_count e) (er_valid _ _ _ Her)) as Hk. apply Z.eqb_neq in Hk. rewrite Hk, andb_false_r. cbn [bind]. rewrite elt_eta. reflexivity.
  Qed.

  Lemma infer_top t ss sh q cur tw us u rest : (t = TRCB \/ t = TRB) -> List.length ss = 1%nat -> sh = [] \/ sh = [SLB] ->
    well_nested [] (map e_tok rest) = true ->
    exists sh', infer t rest (mkW ss sh q cur tw us u) = mkW ss sh' q cur tw us u /\ (sh' = [] \/ sh' = [SLB]).
  Proof.
    intros Ht Hl Hs Hw. unfold infer. cbn [ws_shadow ws_ss]. destruct Hs as [->| ->].
    - rewrite Hl. pose proof (top_value rest t ltac:(tauto) Hw 1 ltac:(lia)) as H.
      destruct (look rest) as [t1 t2]. unfold with_shadow. cbn [ws_ss ws_qs ws_cur ws_tl ws_units ws_unit]. eexists. split; [reflexivity|].
      apply H. destruct Ht as [->| ->]; reflexivity.
    - eexists. split; [reflexivity|]. auto.
  Qed.

  Lemma step_rcb ev rest l c w : R (OBrace :: l) c w -> e_tok ev = TRCB -> well_nested (value_done l) (map e_tok rest) = true ->
    sim (value_done l) (core_step d buf c ev) (wstep ev rest w).
  Proof.
    intros (f & fs & tw & sh & u & Hss & -> & Htl & Her & Hst & Hms & Hn & Hlen & Hsh & Hshadow) Et Hw.
    unfold core_step, worker_step. rewrite Et. unfold do_rcb, w_rcb. rewrite Hss. cbn [ws_ss map sy].
    pose proof (close_ok false (e_next ev) fs (c_cur c) f (c_tl c) tw Her (Hms eq_refl) Htl) as Hc.
    rewrite loop_top. destruct (emit_close d buf (c_cur c) (e_next ev) (c_tl c)) as [[cl' b]|ub]; cbn [bind].
    2:{ rewrite (Hc (fun e' tw' => mkW (SLCB :: map sy l) sh (Q (e' :: fs) (tup_of tw')) (lvl fs) tw' [] u)). reflexivity. }
    destruct Hc as (tw' & Hv' & Hc). rewrite (Hc (fun e' tw' => mkW (SLCB :: map sy l) sh (Q (e' :: fs) (tup_of tw')) (lvl fs) tw' [] u)). cbn [bind ws_ss]. clear Hc.
    set (e1 := if b then set_ms (c_cur c) MInv else c_cur c). set (f1 := if b then set_ms f MInv else f).
    assert (Her1 : erel fs e1 f1) by (unfold e1, f1; destruct b; [apply erel_ms; [exact Her|discriminate|discriminate]|exact Her]).
    cbn [shape] in Hsh. destruct Hsh as [Hvh Hsh]. cbn [List.length] in Hlen. change (nopen (OBrace :: l)) with (nopen l) in Hn.
    destruct l as [|o l]; [|destruct o]; cbn [map sy value_done].
    - cbn in Hn. destruct fs; [|discriminate].
      destruct (infer_top TRCB [SLCB] sh (Q [f1] (tup_of tw')) (lvl []) tw' [] u rest ltac:(auto) eq_refl Hshadow Hw) as (sh' & -> & Hsh').
      cbn [ws_shadow]. destruct Hsh' as [->| ->]; cbn [ss_top nth_error].
      + eexists. split; [reflexivity|]. exists f1, [], tw', [], u. cbn [c_ss c_qs c_cur c_tl]. repeat (split; [first [reflexivity|assumption|discriminate|cbn; lia]|]). auto.
      + unfold with_ss, ss_pop. cbn [ws_ss ws_shadow ws_qs ws_cur ws_tl ws_units ws_unit tl]. rewrite loop_top. unfold on_elt_close. rewrite (erel_type _ _ _ Her1). cbn [bind].
        rewrite (er_low _ _ _ Her1 eq_refl), mt_low. cbn [Z.eqb DFA_PREDICATE DFA_INCOMPLETE_INDEX orb andb bind].
        eexists. split; [reflexivity|]. exists (incr f1), [], tw', [SLB], u. cbn [c_ss c_qs c_cur c_tl]. repeat (split; [first [reflexivity|assumption|discriminate|cbn; lia|apply erel_incr_r; [reflexivity|assumption]]|]). auto.
    - cbn in Hn. destruct fs as [|f2 fs]; [discriminate|]. destruct (c_qs c) as [|e2 cs] eqn:Ec; [destruct Hst|]. destruct Hst as (He2 & Hm2 & Hst).
      cbn [qs_pop]. unfold with_ss. cbn [ws_ss ws_shadow ws_qs ws_cur ws_tl ws_units ws_unit]. rewrite pop_w. cbn in Hsh, Hlen. injection Hn as Hn.
      eexists. split; [reflexivity|]. exists f2, fs, tw', sh, u. cbn [c_ss c_qs c_cur c_tl]. unfold nopen. repeat (split; [first [reflexivity|assumption|lia|intros _; assumption|tauto]|]). assumption.
    - discriminate.
    - unfold with_ss. cbn [ws_ss ws_shadow ws_qs ws_cur ws_tl ws_units ws_unit]. rewrite loop_top. unfold on_elt_close. rewrite (erel_type _ _ _ Her1). cbn [bind].
      rewrite (gmt_elt _ (er_valid _ _ _ (erel_incr _ _ _ Her1))). cbn [bind]. change (q_state (incr e1)) with (q_state e1).
      rewrite (mt_pred d (q_state e1) (q_count (incr e1)) (q_count e1) Hd (er_valid _ _ _ Her1)). cbn [andb]. rewrite orb_false_r.
      assert (G : forall cl'' tw'', vals tw'' = wv cl'' -> R (OBracket :: l) (mkCore (SLB :: map sy l) (c_qs c) (incr e1) cl'') (mkW (SLB :: map sy l) sh (Q (incr f1 :: fs) (tup_of tw'')) (lvl fs) tw'' [] u)).
      { intros cl'' tw'' Hv''. exists (incr f1), fs, tw'', sh, u. cbn [c_ss c_qs c_cur c_tl map sy]. repeat (split; [first [reflexivity|assumption|discriminate|cbn in *; lia|apply erel_incr; assumption]|]). assumption. }
      destruct (mt d (q_state e1) (q_count e1) =? DFA_PREDICATE); cbn [bind].
      + rewrite (er_state _ _ _ Her1). apply sim_emit; [exact Hv'|]. intros cl'' tw'' Hv''. eexists. split; [reflexivity|]. rewrite <- (er_state _ _ _ Her1). apply (G _ _ Hv'').
      + eexists. split; [reflexivity|]. apply (G _ _ Hv').
  Qed.

  Lemma step_rb ev rest l c w : R (OBracket :: l) c w -> e_tok ev = TRB -> well_nested (value_done l) (map e_tok rest) = true ->
    sim (value_done l) (core_step d buf c ev) (wstep ev rest w).
  Proof.
    intros (f & fs & tw & sh & u & Hss & -> & Htl & Her & Hst & Hms & Hn & Hlen & Hsh & Hshadow) Et Hw.
    unfold core_step, worker_step. rewrite Et. unfold do_rb, w_rb. rewrite Hss. cbn [ws_ss map sy].
    cbn in Hn. destruct fs as [|f0 fs]; [discriminate|]. injection Hn as Hn. fold (nopen l) in Hn. destruct (c_qs c) as [|e0 cs] eqn:Ec; [destruct Hst|]. destruct Hst as (Her0 & Hm0 & Hst).
    cbn [qs_top]. cbn [k_item Q tl items ws_qs bind].
    pose proof (close_ok true (e_next ev) fs e0 f0 (c_tl c) tw Her0 Hm0 Htl) as Hc.
    change (mkQs (nodes (f :: f0 :: fs) (tup_of tw)) (Some (zlen (f0 :: fs))) (Some (repeat 0 (List.length (f0 :: fs)))) ((zlen fs, zlen fs) :: items fs)) with (Q (f :: f0 :: fs) (tup_of tw)).
    change (zlen fs, zlen fs) with (lvl fs).
    rewrite loop_below. destruct (emit_close d buf e0 (e_next ev) (c_tl c)) as [[cl' b]|ub]; cbn [bind].
    2:{ rewrite (Hc (fun e' tw' => mkW (SLB :: map sy l) sh (Q (f :: e' :: fs) (tup_of tw')) (lvl (e' :: fs)) tw' [] u)). reflexivity. }
    destruct Hc as (tw' & Hv' & Hc). rewrite (Hc (fun e' tw' => mkW (SLB :: map sy l) sh (Q (f :: e' :: fs) (tup_of tw')) (lvl (e' :: fs)) tw' [] u)). cbn [bind ws_ss]. clear Hc.
    set (f1 := if b then set_ms f0 MInv else f0).
    assert (Her1 : erel fs e0 f1).
    { unfold f1; destruct b; [|exact Her0]. destruct Her0 as [H1 H2 H3 H4 H5 H6]. constructor; cbn; auto; discriminate. }
    cbn [shape] in Hsh. destruct Hsh as [Hvh Hsh]. cbn [List.length] in Hlen.
    destruct l as [|o l]; [|destruct o]; cbn [map sy value_done].
    - cbn in Hn. destruct fs; [|discriminate].
      destruct (infer_top TRB [SLB] sh (Q [f; f1] (tup_of tw')) (lvl [f1]) tw' [] u rest ltac:(auto) eq_refl Hshadow Hw) as (sh' & -> & Hsh').
      cbn [ws_shadow qs_pop]. unfold with_ss, ss_pop. cbn [ws_ss ws_shadow ws_qs ws_cur ws_tl ws_units ws_unit tl]. destruct Hsh' as [->| ->]; cbn [ss_top nth_error].
      + rewrite pop_w. eexists. split; [reflexivity|]. exists f1, [], tw', [], u. cbn [c_ss c_qs c_cur c_tl]. repeat (split; [first [reflexivity|assumption|discriminate|cbn; lia]|]). auto.
      + rewrite pop_w. cbn [bind]. rewrite loop_top. unfold on_count. cbn [bind].
        eexists. split; [reflexivity|]. exists (incr f1), [], tw', [SLB], u. cbn [c_ss c_qs c_cur c_tl]. repeat (split; [first [reflexivity|assumption|discriminate|cbn; lia|apply erel_incr_r; [reflexivity|assumption]]|]). auto.
    - cbn in Hn. destruct fs as [|f2 fs]; [discriminate|]. destruct cs as [|e2 cs]; [destruct Hst|]. destruct Hst as (He2 & Hm2 & Hst).
      cbn [qs_pop]. unfold with_ss. cbn [ws_ss ws_shadow ws_qs ws_cur ws_tl ws_units ws_unit]. rewrite pop_w. cbn [bind]. rewrite pop_w. cbn in Hsh, Hlen. injection Hn as Hn.
      eexists. split; [reflexivity|]. exists f2, fs, tw', sh, u. cbn [c_ss c_qs c_cur c_tl]. unfold nopen. repeat (split; [first [reflexivity|assumption|lia|intros _; assumption|tauto]|]). assumption.
    - discriminate.
    - cbn [qs_pop]. unfold with_ss. cbn [ws_ss ws_shadow ws_qs ws_cur ws_tl ws_units ws_unit]. rewrite pop_w. cbn [bind]. rewrite loop_top. unfold on_count. cbn [bind].
      eexists. split; [reflexivity|]. exists (incr f1), fs, tw', sh, u. cbn [c_ss c_qs c_cur c_tl map sy].
      repeat (split; [first [reflexivity|assumption|discriminate|cbn in *; lia|apply erel_incr; assumption]|]). assumption.
  Qed.

  (** * Whole runs *)
  Lemma step_sim ev rest l c w : R l c w -> well_nested l (map e_tok (ev :: rest)) = true ->
    sim (onto l (e_tok ev)) (core_step d buf c ev) (wstep ev rest w) /\ well_nested (onto l (e_tok ev)) (map e_tok rest) = true.
  Proof.
    intros HR Hw. cbn [map well_nested] in Hw. destruct (e_tok ev) eqn:Et; cbn [onto].
    - apply andb_true_iff in Hw as [Hw Hw2]. apply andb_true_iff in Hw as [H1 H2]. split; [|exact Hw2]. eapply step_lcb; eauto.
    - destruct l as [|[] l]; try discriminate. cbn [tl]. split; [|exact Hw]. eapply step_rcb; eauto.
    - apply andb_true_iff in Hw as [Hw Hw2]. apply andb_true_iff in Hw as [H1 H2]. split; [|exact Hw2]. eapply step_lb; eauto.
    - destruct l as [|[] l]; try discriminate. cbn [tl]. split; [|exact Hw]. eapply step_rb; eauto.
    - split; [|exact Hw]. unfold core_step, worker_step. rewrite Et. cbn. eauto.
    - apply andb_true_iff in Hw as [Hw Hw2]. apply andb_true_iff in Hw as [H1 H2]. apply negb_true_iff in H1. split; [|exact Hw2]. eapply step_ky; eauto.
    - apply andb_true_iff in Hw as [H1 H2]. split; [|exact H2]. eapply step_pri; eauto.
    - discriminate.
  Qed.

  Theorem run_sim : forall evs l c w, R l c w -> well_nested l (map e_tok evs) = true ->
    match foldM (core_step d buf) evs c with
    | Ok c' => exists w' l', worker_loop d true (Some [1]) None junk buf evs w = Ok w' /\ R l' c' w'
    | UB u => worker_loop d true (Some [1]) None junk buf evs w = UB u
    end.
  Proof.
    induction evs as [|ev evs IH]; intros l c w HR Hw.
    - cbn. eauto.
    - destruct (step_sim ev evs l c w HR Hw) as (Hs & Hw'). cbn [foldM worker_loop]. unfold sim in Hs.
      destruct (core_step d buf c ev) as [c'|u]; cbn [bind].
      + destruct Hs as (w' & -> & HR'). cbn [bind]. apply (IH _ _ _ HR' Hw').
      + rewrite Hs. reflexivity.
  Qed.

  Lemma start_R u : R [] init_core (mkW [] [] (fst (initQueryStacks [1])) (snd (initQueryStacks [1])) [] [] u).
  Proof.
    exists (mkElt 1 0 MInv), [], [], [], u. cbn. pose proof (ok_states d Hd). repeat split; auto; try discriminate; try lia; try (intros H1; congruence). cbn. lia.
  Qed.

  Lemma end_R l c w : R l c w -> exists us, last_unit buf w = Ok us.
  Proof.
    intros (f & fs & tw & sh & u & Hss & -> & Htl & Her & Hst & Hms & Hn & Hlen & Hsh & Hshadow).
    unfold last_unit. cbn [ws_qs ws_cur ws_unit ws_units]. cbn [k_item Q tl].
    assert (E : last (items fs) (lvl fs) = (0, 0)).
    { destruct fs as [|f1 fs]; [reflexivity|]. clear. generalize (lvl (f1 :: fs)). revert f1. induction fs as [|f2 fs IH]; intros f1 dflt; [reflexivity|].
      rewrite <- (IH f2 dflt). reflexivity. }
    change (k_item (Q (f :: fs) (tup_of tw))) with (items fs). rewrite E. cbn [fst snd].
    change (zseq 0 0) with [0]. cbn [mapM]. destruct (nodes_root (f :: fs) (tup_of tw) (0, 0)) as (n & Hr & _); [discriminate|].
    change (k_nodes (Q (f :: fs) (tup_of tw))) with (nodes (f :: fs) (tup_of tw)). rewrite Hr. cbn [bind].
    unfold addRoots. change (MAX_STATE <? zlen [n]) with false. cbn [bind]. unfold addUnit. cbn. eauto.
  Qed.
End Single.
