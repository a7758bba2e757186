(** The table of CellTab.v behaves like the list of Constraint.v. *)
From Verif Require Import Base Util Constraint Cells CellsProof CellTab.
Open Scope Z_scope.

(** The buffer of a name ends somewhere. *)
Definition ended (b : bytes) : Prop := zlen (c_string b) < zlen b.
Lemma strcmp_spec : forall b a, no_nul a -> ended b -> strcmp_is0 a b = Ok (beq a (c_string b)).
Proof.
  unfold ended. induction b as [|c b IH]; intros a Hn He; [cbn in He; lia|]. cbn [c_string] in *.
  destruct (Ascii.eqb c NUL) eqn:Hc.
  - destruct a; cbn; rewrite Hc; reflexivity.
  - rewrite !zlen_cons in He. destruct a as [|x a]; [cbn; rewrite Hc; reflexivity|].
    assert (H : strcmp_is0 a b = Ok (beq a (c_string b))) by (apply IH; [|lia]; intros Hi; apply Hn; right; exact Hi).
    cbn [strcmp_is0]. rewrite Hc. destruct (Ascii.eqb_spec x c) as [->|E].
    + rewrite H. f_equal. destruct (beq a (c_string b)) eqn:B1; symmetry; [apply beq_true in B1; apply beq_true; congruence|].
      apply beq_false in B1. apply beq_false. congruence.
    + f_equal. symmetry. apply beq_false. congruence.
Qed.

Record fresh (c : ccell) : Prop := { fr_name : zlen (cc_name c) = 100; fr_set : zlen (cc_set c) = 100; fr_end : ended (cc_name c) }.
Record cell_rep (junk : bytes) (c : ccell) (ci : cinfo) : Prop := {
  cr_fresh : fresh c;
  cr_num : cc_num c = zlen (ci_states ci);
  cr_set : exists r, cc_set c = ci_states ci ++ r;
  cr_name : match ci_name ci with Some n => cc_type c = KY /\ c_string (cc_name c) = n | None => cc_type c = LB /\ c_string (cc_name c) = junk end
}.
Record tab_rep (cells : list ccell) (junk : bytes) (t : ctab) (l : ctable) : Prop := {
  tb_size : zlen (ct_info t) = 1000;
  tb_num : ct_num t = zlen l;
  tb_cells : exists used old, ct_info t = used ++ old /\ Forall2 (cell_rep junk) used l /\ Forall (fun c => fresh c /\ In c cells) old
}.
Definition key_fits (k : ckey) : Prop := match k with CKey n => no_nul n | CArr => True end.

Lemma F2_len {A B} (P : A -> B -> Prop) l1 l2 : Forall2 P l1 l2 -> List.length l1 = List.length l2.
Proof. intros H. induction H; cbn; congruence. Qed.
Lemma zread_mid {A} (a : list A) x b : zread (a ++ x :: b) (zlen a) = Ok x.
Proof. unfold zread, znth. replace (zlen a <? 0) with false by (unfold zlen; lia). rewrite zlen_nat, nth_error_app2, Nat.sub_diag by lia. reflexivity. Qed.
Lemma upd_mid {A} (a : list A) x y b : upd (a ++ x :: b) (List.length a) y = a ++ y :: b.
Proof. induction a as [|z a IH]; [reflexivity|]. cbn. rewrite IH. reflexivity. Qed.

Lemma cell_match junk k c ci : key_fits k -> cell_rep junk c ci ->
  (match k with CKey name => strcmp_is0 name (cc_name c) | CArr => Ok (cc_type c =? LB) end) = Ok (entry_match junk k ci).
Proof.
  intros Hk [[F1 F2 F3] C1 C2 C3]. destruct k as [n|]; cbn [key_fits entry_match] in *.
  - rewrite strcmp_spec by assumption. unfold entry_name. destruct (ci_name ci); destruct C3 as [_ ->]; reflexivity.
  - unfold is_array_entry. destruct (ci_name ci); destruct C3 as [-> _]; reflexivity.
Qed.
Lemma find_spec junk k (Hk : key_fits k) : forall used l, Forall2 (cell_rep junk) used l -> forall pre old t, ct_info t = pre ++ used ++ old ->
  (exists u1 c u2 l1 ci l2, used = u1 ++ c :: u2 /\ l = l1 ++ ci :: l2 /\ Forall2 (cell_rep junk) u1 l1 /\ cell_rep junk c ci /\ Forall2 (cell_rep junk) u2 l2 /\
     find_entry (List.length used) (zlen pre) t k = Ok (zlen pre + zlen u1) /\ forallb (fun e => negb (entry_match junk k e)) l1 = true /\ entry_match junk k ci = true) \/
  (find_entry (List.length used) (zlen pre) t k = Ok (zlen pre + zlen used) /\ forallb (fun e => negb (entry_match junk k e)) l = true).
Proof.
  intros used l H. induction H as [|c ci used l Hc Hr IH]; intros pre old t Et.
  - right. cbn. rewrite Z.add_0_r. auto.
  - cbn [List.length find_entry]. rewrite Et. cbn [app]. rewrite zread_mid. cbn [bind]. rewrite (cell_match junk k c ci Hk Hc). cbn [bind].
    destruct (entry_match junk k ci) eqn:Em.
    + left. exists [], c, used, [], ci, l. cbn [app]. rewrite zlen_nil, Z.add_0_r. repeat split; auto; constructor || apply Hc.
    + specialize (IH (pre ++ [c]) old t). rewrite <- app_assoc in IH. specialize (IH Et). rewrite zlen_app, zlen_cons, zlen_nil in IH. replace (0 + 1) with 1 in IH by reflexivity.
      destruct IH as [(u1 & c0 & u2 & l1 & ci0 & l2 & E1 & E2 & G1 & G2 & G3 & G4 & G5 & G6)|[G1 G2]].
      * left. exists (c :: u1), c0, u2, (ci :: l1), ci0, l2. subst. cbn [app forallb]. rewrite G4, Em, zlen_cons, G5.
        split; [reflexivity|]. split; [reflexivity|]. split; [constructor; assumption|]. split; [exact G2|]. split; [exact G3|]. split; [f_equal; lia|]. split; [reflexivity|exact G6].
      * right. rewrite G1, zlen_cons. cbn [forallb]. rewrite Em, G2. split; [f_equal; lia|reflexivity].
Qed.

Lemma add_hit junk k s ci l2 : entry_match junk k ci = true -> forall l1 n, forallb (fun e => negb (entry_match junk k e)) l1 = true ->
  add_entry junk (l1 ++ ci :: l2) n k s = (ci' <- add_state ci s ;; Ok (l1 ++ ci' :: l2)).
Proof.
  intros Hm. induction l1 as [|e l1 IH]; intros n Hl; cbn [app add_entry].
  - rewrite Hm. reflexivity.
  - cbn [forallb] in Hl. apply andb_prop in Hl as [H1 H2]. apply negb_true_iff in H1. rewrite H1, (IH _ H2). destruct (add_state ci s); reflexivity.
Qed.
Lemma add_miss junk k s : forall l n, forallb (fun e => negb (entry_match junk k e)) l = true ->
  add_entry junk l n k s = if MAX_CONSTRAINT <=? n + zlen l then UB OOBWrite
    else match k with CKey name => nm <- strcopy MAX_KEY_TEXT name ;; Ok (l ++ [mkCinfo (Some nm) [s]]) | CArr => Ok (l ++ [mkCinfo None [s]]) end.
Proof.
  induction l as [|e l IH]; intros n Hl; cbn [app add_entry].
  - rewrite zlen_nil, Z.add_0_r. reflexivity.
  - cbn [forallb] in Hl. apply andb_prop in Hl as [H1 H2]. apply negb_true_iff in H1. rewrite H1, (IH _ H2), zlen_cons.
    replace (n + 1 + zlen l) with (n + (zlen l + 1)) by lia. destruct (_ <=? _); [reflexivity|]. destruct k; [|reflexivity]. destruct (strcopy _ _); reflexivity.
Qed.
Lemma upd_hit junk k ci l2 : entry_match junk k ci = true -> forall l1, forallb (fun e => negb (entry_match junk k e)) l1 = true ->
  updateStateInfo junk (l1 ++ ci :: l2) k = Some (ci_states ci).
Proof.
  intros Hm. induction l1 as [|e l1 IH]; intros Hl; cbn [app updateStateInfo]; [rewrite Hm; reflexivity|].
  cbn [forallb] in Hl. apply andb_prop in Hl as [H1 H2]. apply negb_true_iff in H1. rewrite H1. apply IH, H2.
Qed.
Lemma upd_miss junk k : forall l, forallb (fun e => negb (entry_match junk k e)) l = true -> updateStateInfo junk l k = None.
Proof.
  induction l as [|e l IH]; intros Hl; cbn [updateStateInfo]; [reflexivity|].
  cbn [forallb] in Hl. apply andb_prop in Hl as [H1 H2]. apply negb_true_iff in H1. rewrite H1. apply IH, H2.
Qed.

Lemma find_state_spec s : forall b a r, existsb (Z.eqb s) a = false ->
  exists i, find_state (List.length b) (zlen a) (a ++ b ++ r) s = Ok i /\
    if existsb (Z.eqb s) b then i < zlen a + zlen b else i = zlen a + zlen b.
Proof.
  induction b as [|x b IH]; intros a r Ha.
  - exists (zlen a). cbn. split; [reflexivity|lia].
  - cbn [List.length find_state app]. rewrite zread_mid. cbn [bind existsb]. rewrite (Z.eqb_sym s x). destruct (x =? s) eqn:Ex.
    + exists (zlen a). split; [reflexivity|]. cbn [orb]. rewrite zlen_cons. unfold zlen. lia.
    + destruct (IH (a ++ [x]) r) as (i & E & Hi); [rewrite existsb_app, Ha; cbn; rewrite Z.eqb_sym, Ex; reflexivity|].
      exists i. rewrite <- app_assoc in E. cbn [app] in E. rewrite zlen_app, zlen_cons, zlen_nil in E. replace (zlen a + 1) with (zlen a + (0 + 1)) by lia. split; [exact E|].
      cbn [orb]. rewrite zlen_app, zlen_cons, zlen_nil in Hi. rewrite zlen_cons. destruct (existsb (Z.eqb s) b); lia.
Qed.

Lemma ended_copy d src n : zlen d = n -> c_string d = src -> zlen src < n -> ended d.
Proof. intros H1 H2 H3. unfold ended. rewrite H2, H1. exact H3. Qed.

(** One call; [j'] is the name the array entry has from then on. *)
Lemma add_tab_rep cells junk t l s k : tab_rep cells junk t l -> key_fits k ->
  (k = CArr -> forallb (fun e => negb (is_array_entry e)) l = true -> forall c, znth (ct_info t) (zlen l) = Some c -> junk = c_string (cc_name c)) ->
  match addConstraintInfo junk l s k with
  | Ok l' => exists t', addConstraintInfo_c t s k = Ok t' /\ tab_rep cells junk t' l'
  | UB r => addConstraintInfo_c t s k = UB r
  end.
Proof.
  intros [H1 H2 (used & old & Eu & Hu & Ho)] Hk Hj. unfold addConstraintInfo, addConstraintInfo_c.
  pose proof (F2_len _ _ _ Hu) as Hlen. assert (Ez : zlen used = zlen l) by (unfold zlen; rewrite Hlen; reflexivity).
  rewrite H2, zlen_nat, <- Hlen.
  destruct (find_spec junk k Hk used l Hu [] old t Eu) as [(u1 & c & u2 & l1 & ci & l2 & E1 & E2 & G1 & G2 & G3 & G4 & G5 & G6)|[G1 G2]].
  - change (zlen []) with 0 in G4. cbn [Z.add] in G4. rewrite G4. cbn [bind]. pose proof (F2_len _ _ _ G1) as L1.
    replace (zlen u1 =? zlen l) with false by (symmetry; apply Z.eqb_neq; rewrite <- Ez, E1, zlen_app, zlen_cons; unfold zlen; lia). cbn [negb].
    assert (Ei : ct_info t = u1 ++ c :: (u2 ++ old)) by (rewrite Eu, E1, <- app_assoc; reflexivity).
    rewrite Ei, zread_mid. cbn [bind]. destruct G2 as [[F1 F2 F3] C1 (r & C2) C3]. rewrite C1, zlen_nat.
    destruct (find_state_spec s (ci_states ci) [] r eq_refl) as (i & Ef & Hi). cbn [app] in Ef. change (zlen []) with 0 in Ef, Hi. rewrite C2, Ef. cbn [bind].
    rewrite E2, (add_hit junk k s ci l2 G6 l1 0 G5). unfold add_state. destruct (existsb (Z.eqb s) (ci_states ci)) eqn:Ee.
    + cbn [bind]. replace (i =? zlen (ci_states ci)) with false by lia. exists t. split; [reflexivity|]. rewrite <- E2. split; auto. exists used, old. auto.
    + replace i with (zlen (ci_states ci)) by lia. rewrite Z.eqb_refl. unfold put_int, MAX_STATES. rewrite <- C2, F2.
      replace (zlen (ci_states ci) <? 0) with false by (unfold zlen; lia). cbn [orb]. destruct (Z.leb_spec 100 (zlen (ci_states ci))) as [Hl|Hl]; [reflexivity|].
      cbn [bind]. eexists. split; [reflexivity|]. rewrite zlen_nat, upd_mid.
      destruct r as [|x r]; [exfalso; rewrite C2, app_nil_r in F2; lia|].
      assert (Es : upd (cc_set c) (Z.to_nat (zlen (ci_states ci))) s = ci_states ci ++ s :: r) by (rewrite C2, zlen_nat, upd_mid; reflexivity).
      assert (L2 : forall y, zlen (ci_states ci ++ y :: r) = 100) by (intros y; rewrite <- F2, C2, !zlen_app, !zlen_cons; reflexivity).
      split; cbn [ct_info ct_num].
      * rewrite Ei in H1. rewrite zlen_app, zlen_cons in *. exact H1.
      * rewrite !zlen_app, !zlen_cons. reflexivity.
      * exists (u1 ++ mkCc (cc_name c) (cc_type c) (upd (cc_set c) (Z.to_nat (zlen (ci_states ci))) s) (zlen (ci_states ci) + 1) :: u2), old.
        split; [rewrite <- app_assoc; reflexivity|]. split; [|exact Ho]. apply Forall2_app; [exact G1|]. constructor; [|exact G3].
        rewrite Es. split; cbn [cc_name cc_type cc_set cc_num ci_states ci_name].
        -- split; cbn [cc_name cc_set]; auto.
        -- rewrite zlen_app, zlen_cons, zlen_nil. reflexivity.
        -- exists r. rewrite <- app_assoc. reflexivity.
        -- exact C3.
  - change (zlen []) with 0 in G1. cbn [Z.add] in G1. rewrite G1. cbn [bind]. rewrite Ez, Z.eqb_refl. cbn [negb]. rewrite (add_miss junk k s l 0 G2). cbn [Z.add]. unfold MAX_CONSTRAINT.
    destruct (Z.leb_spec 1000 (zlen l)) as [Hl|Hl].
    + assert (znth (ct_info t) (zlen l) = None) as ->; [|reflexivity]. unfold znth. destruct (zlen l <? 0); [reflexivity|]. apply nth_error_None. rewrite zlen_nat. unfold zlen in *. lia.
    + destruct old as [|c old]; [exfalso; rewrite Eu, app_nil_r in H1; lia|]. apply Forall_cons_iff in Ho as [[[F1 F2 F3] _] Ho].
      assert (Ec : znth (ct_info t) (zlen l) = Some c).
      { pose proof (zread_mid used c old) as Z0. rewrite <- Eu, Ez in Z0. unfold zread in Z0. destruct (znth (ct_info t) (zlen l)); congruence. }
      rewrite Ec. destruct (cc_set c) as [|x set] eqn:Eset; [exfalso; rewrite zlen_nil in F2; lia|].
      assert (Hp : put_int (x :: set) 0 s = Ok (s :: set)) by (unfold put_int; replace ((0 <? 0) || (zlen (x :: set) <=? 0)) with false by (rewrite F2; reflexivity); reflexivity).
      assert (Hend : forall nm ty o, cell_rep junk (mkCc nm ty (s :: set) 1) (mkCinfo o [s]) -> tab_rep cells junk (mkCt (upd (ct_info t) (Z.to_nat (zlen l)) (mkCc nm ty (s :: set) 1)) (zlen l + 1)) (l ++ [mkCinfo o [s]])).
      { intros nm ty o Hc. split; cbn [ct_info ct_num].
        - rewrite zlen_upd. exact H1.
        - rewrite zlen_app, zlen_cons, zlen_nil. reflexivity.
        - exists (used ++ [mkCc nm ty (s :: set) 1]), old. rewrite <- Ez, Eu, zlen_nat, upd_mid, <- app_assoc. split; [reflexivity|]. split; [|exact Ho].
          apply Forall2_app; [exact Hu|]. repeat constructor; try apply Hc. }
      rewrite zlen_cons in F2. destruct k as [n|].
      * cbn [key_fits] in Hk. unfold strcopy, MAX_KEY_TEXT. pose proof (strcopy_spec n (cc_name c) Hk) as Hs. rewrite F1 in Hs.
        destruct (Z.ltb_spec 100 (zlen n + 2)) as [Hn|Hn]; [rewrite Hs; reflexivity|]. destruct Hs as (d & -> & D1 & D2). cbn [bind]. rewrite Hp. cbn [bind].
        eexists. split; [reflexivity|]. apply Hend. split; cbn [cc_name cc_type cc_set cc_num ci_states ci_name].
        -- split; cbn [cc_name cc_set]; [exact D1|rewrite zlen_cons; exact F2|]. eapply ended_copy; [exact D1|exact D2|lia].
        -- reflexivity.
        -- exists set. reflexivity.
        -- auto.
      * cbn [bind]. rewrite Hp. cbn [bind]. eexists. split; [reflexivity|]. apply Hend. split; cbn [cc_name cc_type cc_set cc_num ci_states ci_name].
        -- split; cbn [cc_name cc_set]; [exact F1|rewrite zlen_cons; exact F2|exact F3].
        -- reflexivity.
        -- exists set. reflexivity.
        -- split; [reflexivity|]. symmetry. exact (Hj eq_refl G2 c Ec).
Qed.

(** Before there is an array entry the old names play no role. *)
Definition no_array (l : ctable) : bool := forallb (fun e => negb (is_array_entry e)) l.
Lemma rep_any cells junk junk' t l : no_array l = true -> tab_rep cells junk t l -> tab_rep cells junk' t l.
Proof.
  intros Hn [H1 H2 (used & old & Eu & Hu & Ho)]. split; auto. exists used, old. split; [exact Eu|]. split; [|exact Ho]. clear - Hn Hu.
  induction Hu as [|c ci used l Hc Hr IH]; [constructor|]. unfold no_array in *. cbn [forallb] in Hn. apply andb_prop in Hn as [N1 N2]. constructor; [|apply IH, N2].
  destruct Hc as [C0 C1 C2 C3]. split; auto. unfold is_array_entry in N1. destruct (ci_name ci); [exact C3|discriminate].
Qed.
Lemma match_any junk junk' k ci : is_array_entry ci = false -> entry_match junk k ci = entry_match junk' k ci.
Proof. unfold entry_match, entry_name, is_array_entry. destruct (ci_name ci); [reflexivity|discriminate]. Qed.
Lemma add_any junk junk' k s : forall l n, no_array l = true -> add_entry junk l n k s = add_entry junk' l n k s.
Proof.
  induction l as [|e l IH]; intros n Hn; [reflexivity|]. unfold no_array in *. cbn [forallb] in Hn. apply andb_prop in Hn as [N1 N2]. apply negb_true_iff in N1.
  cbn [add_entry]. rewrite (match_any junk junk' k e N1), (IH (n + 1) N2). reflexivity.
Qed.

(** A sequence of calls: the names that the memory held matter only through one of
    them, the one where the array entry is made. *)
Definition old_names (cells : list ccell) : list bytes := map (fun c => c_string (cc_name c)) cells.
Definition record_c (t : ctab) (p : ckey * Z) : res ctab := addConstraintInfo_c t (snd p) (fst p).
Definition record (junk : bytes) (l : ctable) (p : ckey * Z) : res ctable := addConstraintInfo junk l (snd p) (fst p).

Lemma old_at cells junk t l c : tab_rep cells junk t l -> znth (ct_info t) (zlen l) = Some c -> In c cells.
Proof.
  intros [H1 H2 (used & old & Eu & Hu & Ho)] H. pose proof (F2_len _ _ _ Hu) as Hl. unfold znth in H. replace (zlen l <? 0) with false in H by (unfold zlen; lia).
  rewrite zlen_nat, Eu, nth_error_app2, Hl, Nat.sub_diag in H by lia. apply nth_error_In in H. rewrite Forall_forall in Ho. apply Ho, H.
Qed.
Lemma array_stays junk k s : forall l n l', add_entry junk l n k s = Ok l' -> no_array l = false -> no_array l' = false.
Proof.
  unfold no_array. induction l as [|e l IH]; intros n l1 E Na; [discriminate|]. cbn [add_entry] in E. cbn [forallb] in Na. destruct (entry_match junk k e).
  - unfold add_state in E. destruct (existsb _ _); [cbn [bind] in E; injection E as <-; exact Na|].
    destruct (_ <=? _); [discriminate|]. cbn [bind] in E. injection E as <-. exact Na.
  - destruct (add_entry junk l (n + 1) k s) as [r|] eqn:Er; [|discriminate]. cbn [bind] in E. injection E as <-. cbn [forallb].
    destruct (negb (is_array_entry e)); [|reflexivity]. exact (IH _ _ Er Na).
Qed.

Lemma calls_tab_rep cells : forall xs t l junk0, tab_rep cells junk0 t l -> In junk0 (old_names cells) -> Forall (fun p => key_fits (fst p)) xs ->
  exists junk, (no_array l = false -> junk = junk0) /\ In junk (old_names cells) /\
    match foldM (record junk) xs l with
    | Ok l' => exists t', foldM record_c xs t = Ok t' /\ tab_rep cells junk t' l'
    | UB r => foldM record_c xs t = UB r
    end.
Proof.
  induction xs as [|[k s] xs IH]; intros t l junk0 R Hin Hf.
  - exists junk0. split; [auto|]. split; [exact Hin|]. cbn. eauto.
  - apply Forall_cons_iff in Hf as [Hk Hf]. cbn [fst] in Hk.
    assert (Hstep : exists j1, In j1 (old_names cells) /\ (no_array l = false -> j1 = junk0) /\ match addConstraintInfo j1 l s k with
       | Ok l' => exists t', addConstraintInfo_c t s k = Ok t' /\ tab_rep cells j1 t' l' | UB r => addConstraintInfo_c t s k = UB r end).
    { destruct (no_array l) eqn:Na.
      - destruct k as [n|].
        + exists junk0. split; [exact Hin|]. split; [discriminate|]. apply add_tab_rep; auto. discriminate.
        + destruct (znth (ct_info t) (zlen l)) as [c|] eqn:Ec.
          * exists (c_string (cc_name c)). split; [apply in_map_iff; exists c; split; [reflexivity|eapply old_at; eassumption]|]. split; [discriminate|].
            apply add_tab_rep; [eapply rep_any; eassumption|exact Hk|]. intros _ _ c' Hc'. congruence.
          * exists junk0. split; [exact Hin|]. split; [discriminate|]. apply add_tab_rep; auto. intros _ _ c' Hc'. congruence.
      - exists junk0. split; [exact Hin|]. split; [reflexivity|]. apply add_tab_rep; auto. intros _ Hx. unfold no_array in Na. congruence. }
    destruct Hstep as (j1 & J1 & J2 & J3).
    assert (Hsame : forall j, no_array l = true -> addConstraintInfo j l s k = addConstraintInfo j1 l s k) by (intros j Na; apply add_any, Na).
    assert (Ec : foldM record_c ((k, s) :: xs) t = (t' <- addConstraintInfo_c t s k ;; foldM record_c xs t')) by reflexivity.
    assert (El : forall j, foldM (record j) ((k, s) :: xs) l = (l' <- addConstraintInfo j l s k ;; foldM (record j) xs l')) by reflexivity.
    rewrite Ec.
    destruct (addConstraintInfo j1 l s k) as [l1|r] eqn:E1.
    + destruct J3 as (t1 & -> & R1). cbn [bind] in *. destruct (IH t1 l1 j1 R1 J1 Hf) as (junk & K1 & K2 & K3).
      assert (Hj1 : no_array l = false -> junk = j1) by (intros Na; apply K1; exact (array_stays _ _ _ _ _ _ E1 Na)).
      assert (Hj : addConstraintInfo junk l s k = Ok l1).
      { destruct (no_array l) eqn:Na; [apply (Hsame junk eq_refl)|]. rewrite (Hj1 eq_refl). exact E1. }
      exists junk. split.
      * intros Na. rewrite (Hj1 Na). exact (J2 Na).
      * split; [exact K2|]. rewrite El, Hj. cbn [bind]. exact K3.
    + exists j1. split; [exact J2|]. split; [exact J1|]. rewrite El, E1. cbn [bind]. rewrite J3. reflexivity.
Qed.

Lemma init_tab_rep cells junk : zlen cells = 1000 -> Forall fresh cells -> tab_rep cells junk (initTable cells) [].
Proof.
  intros H1 H2. split; cbn [initTable ct_info ct_num]; [exact H1|reflexivity|]. exists [], cells. split; [reflexivity|]. split; [constructor|].
  rewrite Forall_forall in *. intros c Hc. split; [apply H2, Hc|exact Hc].
Qed.

(** * Looking up *)
Lemma copy_states_in : forall b a r d1 d, List.length d1 = List.length a -> (List.length b <= List.length d)%nat ->
  copy_states (List.length b) (zlen a) (a ++ b ++ r) (d1 ++ d) = Ok (d1 ++ b ++ skipn (List.length b) d).
Proof.
  induction b as [|x b IH]; intros a r d1 d Hl Hd; [reflexivity|]. destruct d as [|y d]; [cbn in Hd; lia|]. cbn [List.length copy_states app]. rewrite zread_mid. cbn [bind].
  unfold put_int. replace ((zlen a <? 0) || (zlen (d1 ++ y :: d) <=? zlen a)) with false by (rewrite zlen_app, zlen_cons; unfold zlen; lia). cbn [bind].
  rewrite zlen_nat, <- Hl, upd_mid. specialize (IH (a ++ [x]) r (d1 ++ [x]) d). rewrite <- !app_assoc in IH. cbn [app] in IH. rewrite zlen_app, zlen_cons, zlen_nil in IH.
  replace (zlen a + 1) with (zlen a + (0 + 1)) by lia. rewrite IH; [reflexivity|rewrite !app_length; cbn; lia|cbn in Hd; lia].
Qed.
Lemma get_tab_rep cells junk t l k dest : tab_rep cells junk t l -> key_fits k -> zlen dest = 100 ->
  match updateStateInfo junk l k with
  | Some q => exists d, updateStateInfo_c t k dest = Ok (zlen q, d) /\ firstn (List.length q) d = q
  | None => updateStateInfo_c t k dest = Ok (-1, dest)
  end.
Proof.
  intros [H1 H2 (used & old & Eu & Hu & Ho)] Hk Hd. unfold updateStateInfo_c.
  pose proof (F2_len _ _ _ Hu) as Hlen. assert (Ez : zlen used = zlen l) by (unfold zlen; rewrite Hlen; reflexivity).
  rewrite H2, zlen_nat, <- Hlen.
  destruct (find_spec junk k Hk used l Hu [] old t Eu) as [(u1 & c & u2 & l1 & ci & l2 & E1 & E2 & G1 & G2 & G3 & G4 & G5 & G6)|[G1 G2]].
  - change (zlen []) with 0 in G4. cbn [Z.add] in G4. rewrite G4. cbn [bind].
    replace (zlen u1 =? zlen l) with false by (symmetry; apply Z.eqb_neq; rewrite <- Ez, E1, zlen_app, zlen_cons; unfold zlen; lia).
    assert (Ei : ct_info t = u1 ++ c :: (u2 ++ old)) by (rewrite Eu, E1, <- app_assoc; reflexivity).
    rewrite Ei, zread_mid. cbn [bind]. destruct G2 as [[F1 F2 F3] C1 (r & C2) C3]. rewrite C1, zlen_nat, E2, (upd_hit junk k ci l2 G6 l1 G5).
    pose proof (copy_states_in (ci_states ci) [] r [] dest eq_refl) as Hc. cbn [app] in Hc. change (zlen []) with 0 in Hc. rewrite C2, Hc.
    + cbn [bind]. eexists. split; [reflexivity|]. rewrite firstn_app, firstn_all, Nat.sub_diag. cbn [firstn]. apply app_nil_r.
    + rewrite C2, zlen_app in F2. unfold zlen in *. lia.
  - change (zlen []) with 0 in G1. cbn [Z.add] in G1. rewrite G1. cbn [bind]. rewrite Ez, Z.eqb_refl, (upd_miss junk k l G2). reflexivity.
Qed.
