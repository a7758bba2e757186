(** The filtering stage on arrays does what the one on lists does. *)
From Verif Require Import Base Spec Util Num Dfa Stream Builder Eval Filter CellSpec Cells CellsProof CellFilter.
Open Scope Z_scope.

(** The places where the candidates of the open elements begin. *)
Fixpoint ptrs_ok (st : list (Z * Z)) (n : Z) : Prop :=
  match st with [] => True | (_, i) :: st' => 0 <= i <= n /\ ptrs_ok st' i end.
Lemma ptrs_more : forall st n m, n <= m -> ptrs_ok st n -> ptrs_ok st m.
Proof. intros [|[s i] st] n m H; cbn [ptrs_ok]; [auto|]. intros [H1 H2]. split; [lia|exact H2]. Qed.

Record g_rep (g : cfilter) (f : pfilter) : Prop := {
  gr_conds : g_conds g = f_conds f;
  gr_stack : st_rep (g_stack g) (f_stack f);
  gr_ptrs : ptrs_ok (f_stack f) (zlen (f_buffer f));
  gr_out : out_rep (g_output g) (f_output f)
}.
Record b_rep (g : cfilter) (f : pfilter) (b : output) : Prop := {
  br_some : g_buffer g = Some b;
  br_rep : out_rep b (f_buffer f);
  br_g : g_rep g f
}.

Lemma add_text o b : addOutputElement_c o b = addOutputElement_c o (c_string b).
Proof.
  unfold addOutputElement_c, strcopy_bytes. rewrite (c_string_id (c_string b) (c_string_no_nul b)). reflexivity.
Qed.
Lemma rep_no_nul o l t : out_rep o l -> In t l -> no_nul t.
Proof. intros R H. apply In_nth_error in H as (i & H). rewrite <- (or_text _ _ R i t H). apply c_string_no_nul. Qed.

Lemma push_rep st l e : st_rep st l ->
  if Nat.leb 100 (List.length l) then pushPredicateStack st e = UB OOBWrite else exists st', pushPredicateStack st e = Ok st' /\ st_rep st' (e :: l).
Proof.
  intros R. pose proof R as [H1 H2 H3 H4]. unfold pushPredicateStack. rewrite H3. replace (zlen l - 1 + 1) with (zlen l) by lia. destruct (Nat.leb_spec 100 (List.length l)) as [G|G].
  - replace ((zlen l <? 0) || (zlen (s_item st) <=? zlen l)) with true by (rewrite H1; unfold zlen in *; lia). reflexivity.
  - destruct (st_push_rep st l e R) as (st' & E & R'). unfold stackPush, pushed, MAX_STACK in *. rewrite H3 in E. change (Z.of_nat 100 - 1) with 99 in E.
    replace (zlen l - 1 <? 99) with true in E by (unfold zlen; lia). replace (zlen l - 1 + 1) with (zlen l) in E by lia. replace (zlen l <? 100) with true in R' by (unfold zlen; lia).
    exists st'. split; [exact E|exact R'].
Qed.
Lemma pop_rep st e l : st_rep st (e :: l) -> exists st', popPredicateStack st = Ok st' /\ st_rep st' l.
Proof.
  intros R. destruct (st_top_item st e l R) as [E1 E2]. destruct (st_pop_rep st _ R) as (st' & E & R'). unfold stackPop in E. rewrite E2, E1 in E. cbn [bind] in E. injection E as <-.
  unfold popPredicateStack. rewrite E1. cbn [bind]. eauto.
Qed.
Lemma top_none st : st_rep st [] -> getTopPredicateStack st = UB OOBRead.
Proof. intros [H1 H2 H3 H4]. unfold getTopPredicateStack, item_at, zread, znth. rewrite H3. reflexivity. Qed.

Lemma release_rep buffer l : out_rep buffer l -> forall k last out o, skipn k l = last -> out_rep out o ->
  match foldM addOutputElement last o with
  | Ok o' => exists out', release (List.length last) (Z.of_nat k) buffer out = Ok out' /\ out_rep out' o'
  | UB r => release (List.length last) (Z.of_nat k) buffer out = UB r
  end.
Proof.
  intros R k last. revert k. induction last as [|t last IH]; intros k out o Hs Ro; [cbn; eauto|].
  assert (Hn : nth_error l k = Some t).
  { rewrite <- (firstn_skipn k l), Hs. assert ((k < List.length l)%nat) by (apply (f_equal (@List.length bytes)) in Hs; rewrite skipn_length in Hs; cbn in Hs; lia).
    rewrite nth_error_app2; rewrite firstn_length; [|lia]. replace (k - Nat.min k (List.length l))%nat with O by lia. reflexivity. }
  cbn [foldM List.length release]. destruct (get_rep _ _ _ _ R Hn) as (b & -> & Eb). cbn [bind]. rewrite add_text, Eb.
  assert (Ht : no_nul t) by (eapply rep_no_nul; [exact R|]; eapply nth_error_In; exact Hn).
  pose proof (add_rep out o t Ro Ht) as A. destruct (addOutputElement o t) as [o1|r]; cbn [bind].
  - destruct A as (out1 & -> & R1). cbn [bind]. replace (Z.of_nat k + 1) with (Z.of_nat (S k)) by lia. apply IH; [|exact R1].
    rewrite (skipn_cons _ _ _ Hn) in Hs. congruence.
  - rewrite A. reflexivity.
Qed.

Section Steps.
  Variable N : numops.
  Variable x : qctx.

  Lemma open_rep g f b s : b_rep g f b -> match filter_open f s with
    | Ok f' => exists g' b', open_c g b s = Ok g' /\ b_rep g' f' b' | UB r => open_c g b s = UB r end.
  Proof.
    intros [B1 B2 [G1 G2 G3 G4]]. unfold filter_open, open_c, MAX_STACK_ELEMENT.
    assert (Es : getOutputSize b = zlen (f_buffer f)) by (unfold getOutputSize; rewrite (or_count _ _ B2); lia). rewrite Es.
    pose proof (push_rep _ _ (s, zlen (f_buffer f)) G2) as P. destruct (Nat.leb 100 (List.length (f_stack f))); [rewrite P; reflexivity|].
    destruct P as (st & -> & R). cbn [bind]. eexists _, b. split; [reflexivity|]. split; [reflexivity|exact B2|]. split; cbn; auto. split; [unfold zlen; lia|exact G3].
  Qed.
  Lemma close_rep g f b : b_rep g f b -> match filter_close N x f with
    | Ok f' => exists g' b', close_c N x g b = Ok g' /\ b_rep g' f' b' | UB r => close_c N x g b = UB r end.
  Proof.
    intros [B1 B2 [G1 G2 G3 G4]]. unfold filter_close, close_c.
    assert (Es : getOutputSize b = zlen (f_buffer f)) by (unfold getOutputSize; rewrite (or_count _ _ B2); lia). rewrite Es.
    destruct (f_stack f) as [|[ps i] st] eqn:Ef; [rewrite (top_none _ G2); reflexivity|].
    destruct (st_top_item _ _ _ G2) as [T1 T2]. unfold getTopPredicateStack. rewrite T1. cbn [bind]. unfold read_conds. rewrite G1.
    destruct (zread (f_conds f) ps) as [[pc|]|r]; cbn [bind]; try reflexivity.
    destruct (getContextSubtree x ps) as [[e|]|r]; cbn [bind]; try reflexivity.
    destruct (evaluateExpression N e pc) as [v|r]; cbn [bind]; [|reflexivity].
    destruct (pop_rep _ _ _ G2) as (st' & Ep & Rp). cbn [ptrs_ok] in G3. destruct G3 as [P1 P2].
    assert (Rk : out_rep (removeOutputElement b (zlen (f_buffer f) - i)) (firstn (Z.to_nat i) (f_buffer f))).
    { pose proof (remove_rep b _ (zlen (f_buffer f) - i) B2 ltac:(lia)) as R. replace (zlen (f_buffer f) - (zlen (f_buffer f) - i)) with i in R by lia. exact R. }
    assert (Ek : zlen (firstn (Z.to_nat i) (f_buffer f)) = i) by (unfold zlen in *; rewrite firstn_length; lia).
    assert (Hsz : stackSize (g_stack g) = zlen ((ps, i) :: st)) by (unfold stackSize; rewrite (sr_top _ _ G2); lia). rewrite Hsz.
    destruct v.
    - destruct st as [|e0 st].
      + change (zlen [(ps, i)] =? 1) with true. cbn match. 
        pose proof (release_rep b (f_buffer f) B2 (Z.to_nat i) _ (g_output g) (f_output f) eq_refl G4) as L. rewrite skipn_length in L.
        replace (List.length (f_buffer f) - Z.to_nat i)%nat with (Z.to_nat (zlen (f_buffer f) - i)) in L by (unfold zlen in *; lia). rewrite Z2Nat.id in L by lia.
        destruct (foldM addOutputElement _ (f_output f)) as [o'|r]; cbn [bind]; [|rewrite L; reflexivity]. destruct L as (out' & -> & Ro). cbn [bind]. rewrite Ep. cbn [bind].
        eexists _, _. split; [reflexivity|]. split; [reflexivity|exact Rk|]. split; cbn; auto.
      + replace (zlen ((ps, i) :: e0 :: st) =? 1) with false by (rewrite !zlen_cons; unfold zlen; lia). cbn [bind]. rewrite Ep. cbn [bind].
        eexists _, _. split; [reflexivity|]. split; [reflexivity|exact B2|]. split; cbn [g_conds g_stack g_output f_conds f_stack f_buffer f_output]; auto. eapply ptrs_more; [|exact P2]. lia.
    - cbn [bind]. rewrite Ep. cbn [bind]. eexists _, _. split; [reflexivity|]. split; [reflexivity|exact Rk|]. split; cbn [g_conds g_stack g_output f_conds f_stack f_buffer f_output]; auto. rewrite Ek. exact P2.
  Qed.
  Lemma text_rep g f b s t : b_rep g f b -> match filter_text x f s (c_string t) with
    | Ok f' => exists g' b', text_c x g b s t = Ok g' /\ b_rep g' f' b' | UB r => text_c x g b s t = UB r end.
  Proof.
    intros [B1 B2 [G1 G2 G3 G4]]. unfold filter_text, text_c.
    assert (Hsz : stackSize (g_stack g) = zlen (f_stack f)) by (unfold stackSize; rewrite (sr_top _ _ G2); lia). rewrite Hsz.
    destruct (f_stack f) as [|[ps i] st] eqn:Ef.
    { cbn. exists g, b. split; [reflexivity|]. split; auto. split; rewrite ?Ef; auto. }
    replace (0 <? zlen ((ps, i) :: st)) with true by (rewrite zlen_cons; unfold zlen; lia).
    destruct (st_top_item _ _ _ G2) as [T1 T2]. unfold getTopPredicateStack. rewrite T1. cbn [bind]. rewrite G1.
    destruct (zread (f_conds f) ps) as [o|r]; cbn [bind]; [|reflexivity]. destruct (getContextSubtree x s) as [node|r]; cbn [bind]; [|reflexivity].
    assert (Hc : match (b0 <- addOutputElement (f_buffer f) (c_string t) ;; Ok (mkF (f_conds f) ((ps, i) :: st) b0 (f_output f))) with
      | Ok f' => exists g' b', (b0 <- addOutputElement_c b t ;; Ok (mkG (f_conds f) (g_stack g) (Some b0) (g_output g))) = Ok g' /\ b_rep g' f' b'
      | UB r => (b0 <- addOutputElement_c b t ;; Ok (mkG (f_conds f) (g_stack g) (Some b0) (g_output g))) = UB r end).
    { rewrite add_text. pose proof (add_rep b _ (c_string t) B2 (c_string_no_nul t)) as A. unfold addOutputElement in *.
      destruct (MAX_OUTPUT <=? zlen (f_buffer f)); [rewrite A; reflexivity|]. unfold strcopy in *. destruct (MAX_STRING <? zlen (c_string t) + 2); cbn [bind] in *; [rewrite A; reflexivity|].
      destruct A as (b1 & -> & R1). cbn [bind]. eexists _, b1. split; [reflexivity|]. split; [reflexivity|exact R1|]. split; cbn [g_conds g_stack g_output f_conds f_stack f_buffer f_output]; auto.
      eapply ptrs_more; [|exact G3]. rewrite zlen_app, zlen_cons. unfold zlen. lia. }
    destruct node as [e|]; [|exact Hc]. destruct o as [[|p pc]|]; [exact Hc| |reflexivity].
    destruct (node_string e) as [name|r]; cbn [bind]; [|reflexivity]. destruct (find_condition (p :: pc) name) as [k|]; [|exact Hc].
    eexists _, b. split; [reflexivity|]. split; [reflexivity|exact B2|]. split; cbn [g_conds g_stack g_output f_conds f_stack f_buffer f_output]; auto.
  Qed.
  Lemma step_rep g f b t : b_rep g f b -> match filter_step N x f (tc_state t, c_string (tc_text t)) with
    | Ok f' => exists g' b', step_c N x g t = Ok g' /\ b_rep g' f' b' | UB r => step_c N x g t = UB r end.
  Proof.
    intros R. unfold filter_step, step_c. rewrite (br_some _ _ _ R).
    destruct (beq (c_string (tc_text t)) (B "{")); [apply open_rep, R|]. destruct (beq (c_string (tc_text t)) (B "}")); [apply close_rep, R|]. apply text_rep, R.
  Qed.
End Steps.

(** The array [tl] holds the pairs [l]. *)
Definition holds_tuples (tl : tlist) (l : list tuple) : Prop :=
  exists es, tl_rep tl es /\ Forall2 (fun e t => e_state e = fst t /\ e_item e = IText (snd t)) es l.
Lemma tuples_at tl es l : tl_rep tl es -> Forall2 (fun e t => e_state e = fst t /\ e_item e = IText (snd t)) es l ->
  forall i t, nth_error l i = Some t -> exists c, getTuple tl (Z.of_nat i) = Ok c /\ tc_state c = fst t /\ c_string (tc_text c) = snd t.
Proof.
  intros R F i t Ht. assert (He : exists e, nth_error es i = Some e /\ e_state e = fst t /\ e_item e = IText (snd t)).
  { clear R. revert i Ht. induction F as [|e u es l H F IH]; intros [|i] Ht; try discriminate; [injection Ht as ->; exists e; auto|]. apply IH, Ht. }
  destruct He as (e & E1 & E2 & E3). destruct (tl_get_rep _ _ _ _ R E1) as (c & G & Ee). exists c. split; [exact G|]. subst e. cbn [entry_of e_state e_item] in *.
  split; [exact E2|]. destruct (tc_start c =? -1); [|discriminate]. congruence.
Qed.
Lemma each_rep {S1 S2} (rep : S1 -> S2 -> Prop) (f : S1 -> tcell -> res S1) (h : S2 -> tuple -> res S2) tl l :
  (forall i t, nth_error l i = Some t -> exists c, getTuple tl (Z.of_nat i) = Ok c /\ tc_state c = fst t /\ c_string (tc_text c) = snd t) ->
  (forall s1 s2 c, rep s1 s2 -> match h s2 (tc_state c, c_string (tc_text c)) with Ok s2' => exists s1', f s1 c = Ok s1' /\ rep s1' s2' | UB r => f s1 c = UB r end) ->
  forall rest k s1 s2, skipn k l = rest -> rep s1 s2 ->
  match foldM h rest s2 with Ok s2' => exists s1', each_tuple f (List.length rest) (Z.of_nat k) tl s1 = Ok s1' /\ rep s1' s2' | UB r => each_tuple f (List.length rest) (Z.of_nat k) tl s1 = UB r end.
Proof.
  intros Hl Hs. induction rest as [|t rest IH]; intros k s1 s2 Hk R; [cbn; eauto|].
  assert (Hn : nth_error l k = Some t).
  { rewrite <- (firstn_skipn k l), Hk. assert ((k < List.length l)%nat) by (apply (f_equal (@List.length tuple)) in Hk; rewrite skipn_length in Hk; cbn in Hk; lia).
    rewrite nth_error_app2; rewrite firstn_length; [|lia]. replace (k - Nat.min k (List.length l))%nat with O by lia. reflexivity. }
  destruct (Hl _ _ Hn) as (c & Ec & Es & Et). cbn [foldM List.length each_tuple]. rewrite Ec. cbn [bind]. specialize (Hs s1 s2 c R). rewrite Es, Et, <- surjective_pairing in Hs.
  destruct (h s2 t) as [s2'|r]; cbn [bind]; [|rewrite Hs; reflexivity]. destruct Hs as (s1' & -> & R'). cbn [bind]. replace (Z.of_nat k + 1) with (Z.of_nat (S k)) by lia.
  apply IH; [|exact R']. rewrite (skipn_cons _ _ _ Hn) in Hk. congruence.
Qed.
Lemma foldM_map {S A C} (f : S -> C -> res S) (m : A -> C) : forall l s, foldM f (map m l) s = foldM (fun s a => f s (m a)) l s.
Proof. induction l as [|a l IH]; intros s; [reflexivity|]. cbn [map foldM]. destruct (f s (m a)); [apply IH|reflexivity]. Qed.

(** A filter between two loads. *)
Record idle_rep (g : cfilter) (f : pfilter) : Prop := {
  ir_g : g_rep g f;
  ir_buf : match g_buffer g with Some b => out_rep b (f_buffer f) | None => f_buffer f = [] end
}.
Theorem final_rep N x junk g f tl l : zlen junk = 800000 -> Forall (fun c : bytes => zlen c = 1000) junk -> idle_rep g f -> holds_tuples tl l ->
  match generateFinalOutput N x f l with
  | Ok f' => exists g', generateFinalOutput_c N x junk g tl = Ok g' /\ idle_rep g' f'
  | UB r => generateFinalOutput_c N x junk g tl = UB r
  end.
Proof.
  intros J1 J2 [R Rb] (es & Te & F). pose proof (tuples_at tl es l Te F) as Hat. pose proof R as [G1 G2 G3 G4].
  assert (Hn : Z.to_nat (getTupleListSize tl) = List.length l).
  { unfold getTupleListSize. rewrite (tr_count _ _ Te). replace (zlen es - 1 + 1) with (zlen es) by lia. rewrite zlen_nat. clear - F. induction F; cbn; congruence. }
  unfold generateFinalOutput, generateFinalOutput_c, no_predicates. rewrite Hn, G1. destruct (forallb _ (f_conds f)).
  - assert (Em : foldM addOutputElement (map snd l) (f_output f) = foldM (fun o (a : tuple) => addOutputElement o (snd a)) l (f_output f)) by apply foldM_map. rewrite Em. clear Em.
    assert (E : match foldM (fun o (a : tuple) => addOutputElement o (snd a)) l (f_output f) with
      | Ok o' => exists out', each_tuple (fun o t => addOutputElement_c o (tc_text t)) (List.length l) (Z.of_nat 0) tl (g_output g) = Ok out' /\ out_rep out' o'
      | UB r => each_tuple (fun o t => addOutputElement_c o (tc_text t)) (List.length l) (Z.of_nat 0) tl (g_output g) = UB r end).
    { apply (each_rep out_rep _ _ tl l Hat); [|reflexivity|exact G4]. intros s1 s2 c Hr. cbn [snd]. rewrite add_text. apply add_rep; [exact Hr|apply c_string_no_nul]. }
    change (Z.of_nat 0) with 0 in E. destruct (foldM (fun o (a : tuple) => addOutputElement o (snd a)) l (f_output f)) as [o'|r]; cbn [bind]; [|rewrite E; reflexivity].
    destruct E as (out' & -> & Ro). cbn [bind]. eexists. split; [reflexivity|]. split; [|exact Rb]. split; cbn [g_conds g_stack g_output f_conds f_stack f_buffer f_output]; auto.
  - set (b := match g_buffer g with Some b => b | None => initOutput junk end).
    assert (Hb : out_rep b (f_buffer f)) by (unfold b; destruct (g_buffer g); [exact Rb|rewrite Rb; apply init_rep; assumption]).
    assert (E := each_rep (fun g f => exists b, b_rep g f b) (step_c N x) (filter_step N x) tl l Hat).
    specialize (E ltac:(intros s1 s2 c (b0 & Hr); pose proof (step_rep N x s1 s2 b0 c Hr) as S; destruct (filter_step N x s2 _); [|exact S]; destruct S as (g' & b' & S1 & S2); exists g'; eauto)).
    specialize (E l O (mkG (f_conds f) (g_stack g) (Some b) (g_output g)) f eq_refl). change (Z.of_nat 0) with 0 in E.
    specialize (E ltac:(exists b; split; [reflexivity|exact Hb|split; cbn [g_conds g_stack g_output]; auto])).
    destruct (foldM (filter_step N x) l f) as [f'|r]; [|exact E]. destruct E as (g' & Eg & (b' & [B1 B2 B3])). exists g'. split; [exact Eg|]. split; [exact B3|]. rewrite B1. exact B2.
Qed.
