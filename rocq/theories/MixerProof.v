(** The product automaton recognises, for every word of inputs, the last pattern
    that matches it. *)
From Verif Require Import Base Regex RegexProof Compress CompressProof Mixer.
Open Scope Z_scope.

(** Specification: the number (from 1) of the last pattern that matches, 0 if
    there is none. *)
Fixpoint last_match (pats : list (list ritem)) (w : list Z) (i : Z) : Z :=
  match pats with
  | [] => 0
  | p :: pats' =>
      let later := last_match pats' w (i + 1) in
      if negb (later =? 0) then later else if pm p w then i else 0
  end.

Definition vecw (ds : list sdfa) (v : list Z) (w : list Z) : list Z :=
  map (fun p => trun (s_rows (fst p)) (snd p) w) (combine ds v).

Definition all_zero (v : list Z) : bool := forallb (fun s => s =? 0) v.

Lemma vec_next_vecw ds : forall v a, vec_next ds v a = vecw ds v [a].
Proof.
  induction ds as [|d ds IH]; intros [|s v] a; cbn [vec_next vecw combine map]; try reflexivity.
  unfold vecw in IH. rewrite IH. cbn [fst snd trun]. reflexivity.
Qed.

Lemma vecw_cons ds : forall v a w, vecw ds v (a :: w) = vecw ds (vec_next ds v a) w.
Proof.
  unfold vecw. induction ds as [|d ds IH]; intros [|s v] a w; cbn [vec_next combine map]; try reflexivity.
  rewrite IH. cbn [fst snd trun]. f_equal. destruct (s =? 0); [|reflexivity].
  symmetry. apply trun_zero.
Qed.

Lemma vecw_nil ds : forall v, List.length v = List.length ds -> vecw ds v [] = v.
Proof.
  unfold vecw. induction ds as [|d ds IH]; intros [|s v] H; cbn in *; try reflexivity; try discriminate.
  rewrite IH by congruence. reflexivity.
Qed.

Lemma vec_next_length ds : forall v a, List.length v = List.length ds ->
  List.length (vec_next ds v a) = List.length ds.
Proof.
  induction ds as [|d ds IH]; intros [|s v] a H; cbn in *; try congruence.
  rewrite IH by congruence. reflexivity.
Qed.

Lemma vecw_zero ds : forall v w, all_zero v = true -> all_zero (vecw ds v w) = true.
Proof.
  unfold vecw, all_zero. induction ds as [|d ds IH]; intros [|s v] w H; cbn in *; try reflexivity.
  apply andb_true_iff in H. destruct H as [H1 H2]. apply Z.eqb_eq in H1. subst s.
  rewrite trun_zero, Z.eqb_refl. apply IH, H2.
Qed.

Lemma vec_run ds : forall w v, List.length v = List.length ds -> w <> [] ->
  run (vec_step ds) v w = if all_zero (vecw ds v w) then None else Some (vecw ds v w).
Proof.
  induction w as [|a w IH]; intros v Hl Hw; [contradiction|]. cbn [run]. rewrite vecw_cons.
  unfold vec_step at 1. fold (all_zero (vec_next ds v a)).
  destruct (all_zero (vec_next ds v a)) eqn:E.
  - rewrite vecw_zero by exact E. reflexivity.
  - destruct w as [|b w].
    + cbn [run]. rewrite vecw_nil by (apply vec_next_length; exact Hl). rewrite E. reflexivity.
    + apply IH; [apply vec_next_length; exact Hl|discriminate].
Qed.

Lemma vec_run_ones ds w : ds <> [] ->
  run (vec_step ds) (map (fun _ => 1) ds) w =
  if all_zero (vecw ds (map (fun _ => 1) ds) w) then None
  else Some (vecw ds (map (fun _ => 1) ds) w).
Proof.
  intros Hne. destruct w as [|a w].
  - cbn [run]. rewrite vecw_nil by apply map_length. destruct ds as [|d ds]; [contradiction|reflexivity].
  - apply vec_run; [apply map_length|discriminate].
Qed.

Lemma vecw_ones ds w : vecw ds (map (fun _ => 1) ds) w = map (fun d => trun (s_rows d) 1 w) ds.
Proof. unfold vecw. induction ds as [|d ds IH]; cbn; [reflexivity|]. rewrite IH. reflexivity. Qed.

(** * Universe of state vectors *)
Fixpoint vecs (ds : list sdfa) : list (list Z) :=
  match ds with
  | [] => [[]]
  | d :: ds' => flat_map (fun s => map (cons s) (vecs ds')) (inputs_from 0 (List.length (s_rows d)))
  end.

Lemma flat_map_const_length {X Y} (f : X -> list Y) n l :
  (forall x, List.length (f x) = n) -> List.length (flat_map f l) = (List.length l * n)%nat.
Proof.
  intros H. induction l as [|x l IH]; cbn; [reflexivity|]. rewrite app_length, H, IH. reflexivity.
Qed.

Lemma vecs_length ds :
  Z.of_nat (List.length (vecs ds)) = fold_right (fun d n => zlen (s_rows d) * n) 1 ds.
Proof.
  induction ds as [|d ds IH]; cbn [vecs fold_right]; [reflexivity|].
  rewrite (flat_map_const_length _ (List.length (vecs ds))) by (intros; apply map_length).
  rewrite inputs_from_length, Nat2Z.inj_mul, IH. reflexivity.
Qed.

Lemma in_vecs ds : forall v, In v (vecs ds) <->
  Forall2 (fun d s => 0 <= s < zlen (s_rows d)) ds v.
Proof.
  induction ds as [|d ds IH]; intros v; cbn [vecs].
  - split.
    + intros [<-|[]]. constructor.
    + intros H. inversion H. left. reflexivity.
  - rewrite in_flat_map. split.
    + intros (s & Hs & Hv). apply in_map_iff in Hv. destruct Hv as (v' & <- & Hv').
      apply inputs_from_in in Hs. constructor; [unfold zlen; lia|]. apply IH, Hv'.
    + intros H. inversion H as [|? s ? v' Hs Hv']; subst. exists s. split.
      * apply inputs_from_in. unfold zlen in Hs. lia.
      * apply in_map, IH, Hv'.
Qed.

Lemma F2_in_r {X Y} (P : X -> Y -> Prop) l l' : Forall2 P l l' ->
  forall y, In y l' -> exists x, P x y.
Proof.
  induction 1 as [|x y l l' H _ IH]; intros z Hz; [contradiction|].
  destruct Hz as [<-|Hz]; [eauto|]. apply IH, Hz.
Qed.

Lemma stop_zero ds : forall v i, all_zero v = true -> stop_of ds v i = 0.
Proof.
  induction ds as [|d l IH]; intros v i Ez; cbn [stop_of]; [reflexivity|].
  destruct v as [|s v]; [reflexivity|]. cbn in Ez. apply andb_true_iff in Ez. destruct Ez as [E1 E2].
  rewrite IH by exact E2. rewrite E1. reflexivity.
Qed.

Lemma stop_ones inputs pats ds : Forall2 (simple_ok inputs) pats ds ->
  forall i, stop_of ds (map (fun _ => 1) ds) i = 0.
Proof.
  induction 1 as [|p d pats ds H _ IH]; intros i; cbn [map stop_of]; [reflexivity|].
  rewrite IH. rewrite (so_start _ _ _ H). reflexivity.
Qed.

(** * Numbers of the states after one input *)
Section First.
  Context {A : Type}.
  Variables (eqb : A -> A -> bool) (step : A -> Z -> option A).

  Lemma find_index_lt x : forall L i j, find_index eqb x L i = Some j -> j < i + zlen L.
  Proof.
    induction L as [|y L IH]; intros i j H; cbn [find_index] in H; [discriminate|]. rewrite zlen_cons. pose proof (zlen_nonneg L).
    destruct (eqb y x); [injection H as <-; lia|]. specialize (IH _ _ H). lia.
  Qed.

  Lemma row_small cur : forall n a L row, 0 <= a -> zlen row = a -> zlen L <= a -> (forall i, 0 <= i -> tread row i <= i + 1) ->
    forall i, 0 <= i -> tread (snd (fold_left (row_step eqb step cur) (inputs_from a n) (L, row))) i <= i + 1.
  Proof.
    induction n as [|n IH]; intros a L row Ha Hr HL H i Hi; cbn [inputs_from fold_left snd]; [apply H, Hi|].
    assert (G : forall L' z, zlen L' <= a + 1 -> z <= a + 1 -> forall i, 0 <= i ->
      tread (snd (fold_left (row_step eqb step cur) (inputs_from (a + 1) n) (L', row ++ [z]))) i <= i + 1).
    { intros L' z HL' Hz. apply IH; [lia|rewrite zlen_app, zlen_cons, zlen_nil; lia|exact HL'|].
      intros k Hk. unfold tread in *. destruct (Z.lt_ge_cases k a).
      - rewrite app_nth1 by (unfold zlen in Hr; lia). apply H, Hk.
      - rewrite app_nth2 by (unfold zlen in Hr; lia). destruct (_ - _)%nat as [|[|j]]; cbn; lia. }
    unfold row_step at 2. destruct (step cur a) as [x|]; [|apply G; lia].
    destruct (find_index eqb x L 0) as [j|] eqn:Ef; [|apply G; [rewrite zlen_app, zlen_cons, zlen_nil; lia|lia|exact Hi]].
    apply find_index_lt in Ef. apply G; lia.
  Qed.

  Lemma rounds_first inputs r0 : forall n p L rest L' rows', niter n (explore_round eqb step inputs) (p, L, r0 :: rest) = inr (L', rows') ->
    exists rest', rows' = r0 :: rest'.
  Proof.
    induction n as [|n IH]; intros p L rest L' rows' H; cbn [niter] in H; [discriminate|]. unfold explore_round at 1 in H.
    destruct (nth_error L p) as [cur|]; [|injection H as <- <-; eauto].
    destruct (make_row eqb step inputs cur L) as [L2 row]. cbn [app] in H. apply (IH _ _ _ _ _ H).
  Qed.

  Lemma explore_first fuel inputs start L rows : explore eqb step fuel inputs start = Ok (L, rows) ->
    exists row k rest, rows = (row, k) :: rest /\ forall i, 0 <= i -> tread row i <= i + 1.
  Proof.
    unfold explore. rewrite piter_niter. destruct (Pos.to_nat fuel) as [|n] eqn:En; [lia|]. cbn [niter].
    unfold explore_round at 1. cbn [nth_error].
    destruct (make_row eqb step inputs start [start]) as [L2 row] eqn:Er. cbn [app].
    destruct (niter n _ _) as [|[L' rows']] eqn:E; [discriminate|]. intros H. injection H as <- <-.
    destruct (rounds_first _ _ _ _ _ _ _ _ E) as (rest & ->). exists row, (zlen L2), rest. split; [reflexivity|].
    replace row with (snd (make_row eqb step inputs start [start])) by (rewrite Er; reflexivity).
    apply row_small; [lia|reflexivity|cbn; lia|]. intros i Hi. unfold tread. destruct (Z.to_nat i) as [|[|k]]; cbn; lia.
  Qed.
End First.

Section Combine.
  Variable inputs : Z.
  Hypothesis Hin : 1 <= inputs < 2147483648.
  Variables (pats : list (list ritem)) (ds : list sdfa).
  Hypothesis Hds : Forall2 (simple_ok inputs) pats ds.
  Hypothesis Hne : pats <> [].

  Lemma ds_ne : ds <> [].
  Proof. intros ->. inversion Hds; subst. contradiction. Qed.

  Lemma ds_ok d : In d ds -> exists p, simple_ok inputs p d.
  Proof.
    apply (F2_in_r _ _ _ Hds).
  Qed.

  Lemma vecs_start : In (map (fun _ => 1) ds) (vecs ds).
  Proof.
    apply in_vecs. pose proof ds_ok as H. induction ds as [|d l IH]; cbn; [constructor|].
    constructor.
    - destruct (H d (or_introl eq_refl)) as (p & Hp). pose proof (so_two _ _ _ Hp). lia.
    - assert (forall d0, In d0 l -> exists p, simple_ok inputs p d0) as H'.
      { intros d0 H0. apply H. right. exact H0. }
      clear - H'. induction l as [|d l IH]; cbn; [constructor|]. constructor.
      + destruct (H' d (or_introl eq_refl)) as (p & Hp). pose proof (so_two _ _ _ Hp). lia.
      + apply IH. intros d0 H0. apply H'. right. exact H0.
  Qed.

  Lemma vecs_step x a y : In x (vecs ds) -> vec_step ds x a = Some y -> In y (vecs ds).
  Proof.
    intros Hx Hs. unfold vec_step in Hs. destruct (forallb _ _); [discriminate|]. injection Hs as <-.
    apply in_vecs. apply in_vecs in Hx. pose proof ds_ok as H. clear - Hx H.
    induction Hx as [|d s l v Hs Hv IH]; cbn [vec_next]; [constructor|]. constructor.
    - destruct (H d (or_introl eq_refl)) as (p & Hp). pose proof (so_two _ _ _ Hp).
      destruct (Z.eqb_spec s 0); [lia|]. apply (so_rows _ _ _ Hp s). lia.
    - apply IH. intros d0 H0. apply H. right. exact H0.
  Qed.

  Lemma zs_eqb_spec : forall a b, zs_eqb a b = true <-> a = b.
  Proof.
    induction a as [|x a IH]; intros [|y b]; cbn; split; intros H; try congruence; try reflexivity.
    - apply andb_true_iff in H. destruct H as [H1 H2]. apply Z.eqb_eq in H1. apply IH in H2. congruence.
    - injection H as -> ->. rewrite Z.eqb_refl. apply IH. reflexivity.
  Qed.

  Lemma mixer_fuel_ok : (List.length (vecs ds) < Pos.to_nat (mixer_fuel ds))%nat.
  Proof. unfold mixer_fuel. rewrite <- vecs_length. lia. Qed.

  (** The rows as seen through the packed table. *)
  Record main_ok (m : main_dfa) (T : list (list Z)) : Prop := {
    mo_states : zlen T = m_states m;
    mo_two    : 2 <= m_states m;
    mo_inputs : m_inputs m = inputs;
    mo_stops  : zlen (m_stops m) = m_states m;
    mo_row    : forall row, In row T -> zlen row = inputs /\ forall x, In x row -> 0 <= x < m_states m;
    mo_lookup : forall s a, 0 <= s < m_states m -> 0 <= a < inputs ->
                  lookup (m_table m) s a = Ok (tread (nth (Z.to_nat s) T []) a);
    mo_run    : forall w, Forall (input inputs) w ->
                  0 <= trun T 1 w < m_states m /\
                  (trun T 1 w = 0 <-> forall p, In p pats -> run (set_step p) [0%nat] w = None);
    mo_stop   : forall w, Forall (input inputs) w -> w <> [] ->
                  tread (m_stops m) (trun T 1 w) = last_match pats w 1;
    mo_reach  : forall s, 1 <= s < m_states m -> exists w, Forall (input inputs) w /\ trun T 1 w = s;
    mo_same   : forall w w', Forall (input inputs) w -> Forall (input inputs) w' ->
                  (trun T 1 w = trun T 1 w' <->
                   map (fun d => trun (s_rows d) 1 w) ds = map (fun d => trun (s_rows d) 1 w') ds);
    mo_stop1  : tread (m_stops m) 1 = 0;
    mo_stop0  : tread (m_stops m) 0 = 0;
    mo_first  : forall a, 0 <= a -> tread (nth 1 T []) a <= a + 1
  }.

  Lemma stop_vec w : Forall (input inputs) w -> w <> [] -> forall i, 1 <= i ->
    stop_of ds (map (fun d => trun (s_rows d) 1 w) ds) i = last_match pats w i.
  Proof.
    intros Hw Hn. clear Hne. induction Hds as [|p d ps ds' H _ IH]; intros i Hi; cbn [stop_of map last_match]; [reflexivity|].
    assert (Hds' : Forall2 (simple_ok inputs) ps ds') by (inversion Hds; assumption).
    rewrite (IH Hds') by lia. destruct (negb (last_match ps w (i + 1) =? 0)); [reflexivity|].
    pose proof (so_stop _ _ _ H w Hw Hn) as Hs. rewrite Hs. rewrite negb_involutive.
    destruct (Z.eqb_spec (trun (s_rows d) 1 w) 0) as [Hz|Hz]; [|cbn [negb andb]; destruct (pm p w); reflexivity].
    cbn [negb andb]. destruct (pm p w) eqn:Ep; [|reflexivity]. exfalso.
    rewrite pm_run in Ep by exact Hn. apply (so_run _ _ _ H w Hw) in Hz. rewrite Hz in Ep. discriminate.
  Qed.

  Theorem Combine_ok : exists m T, Combine inputs ds = Ok m /\ main_ok m T.
  Proof.
    unfold Combine.
    destruct (explore_ok zs_eqb zs_eqb_spec (vec_step ds) (map (fun _ => 1) ds) inputs (proj1 Hin) (vecs ds)
                vecs_start vecs_step (mixer_fuel ds) mixer_fuel_ok) as (L & rows & Hex & Hf).
    rewrite Hex. cbn [bind]. pose proof Hf as ((N1 & N2 & N3) & F2 & F3 & F4).
    assert (Hro : rows_ok 1 (map (fun r => (fst r, snd r + 1)) rows)).
    { assert (G : forall rs k, (forall j r, nth_error rs j = Some r -> row_ok (vec_step ds) inputs L (k + j) r) ->
                rows_ok (Z.of_nat k + 1) (map (fun r => (fst r, snd r + 1)) rs)).
      { induction rs as [|r rs IH]; intros k Hk; cbn [map rows_ok fst snd]; [exact I|].
        destruct (Hk 0%nat r eq_refl) as ((c & C1 & (C2 & _)) & C3 & C4). rewrite Nat.add_0_r in C3.
        split; [lia|]. split; [lia|]. split.
        - intros q Hq. specialize (C4 q Hq). lia.
        - replace (Z.of_nat k + 1 + 1) with (Z.of_nat (S k) + 1) by lia. apply IH.
          intros j r' Hj. replace (S k + j)%nat with (k + S j)%nat by lia. apply Hk. exact Hj. }
      apply (G rows 0%nat). intros j r Hj. apply F4. exact Hj. }
    destruct (compress_lossless _ Hro) as (c & Hc & Hlook). rewrite Hc. cbn [bind].
    assert (Hl : (1 <= List.length L)%nat) by (destruct L; [discriminate|cbn; lia]).
    set (T := repeat 0 (Z.to_nat inputs) :: map fst rows).
    exists (mkM c (zlen L + 1) (0 :: map (fun v => stop_of ds v 1) L) inputs), T.
    split; [reflexivity|].
    assert (HT : zlen T = zlen L + 1).
    { unfold T. rewrite zlen_cons. unfold zlen. rewrite map_length, F3. reflexivity. }
    assert (Hrows : forall s, 1 <= s < zlen L + 1 -> exists r, nth_error rows (Z.to_nat (s - 1)) = Some r /\
              nth (Z.to_nat s) T [] = fst r).
    { intros s Hs. destruct (nth_error rows (Z.to_nat (s - 1))) as [r|] eqn:Er.
      2:{ apply nth_error_None in Er. unfold zlen in Hs. lia. }
      exists r. split; [reflexivity|]. unfold T.
      replace (Z.to_nat s) with (S (Z.to_nat (s - 1))) by lia. cbn [nth].
      apply nth_error_nth. rewrite nth_error_map, Er. reflexivity. }
    assert (Htr : forall w s, trun T s w = trun ([] :: map fst rows) s w).
    { induction w as [|a w IH]; intros s; cbn [trun]; [reflexivity|]. destruct (Z.eqb_spec s 0); [reflexivity|].
      unfold T. destruct (Z.to_nat s) as [|n0] eqn:En; cbn [nth]; [|apply IH].
      assert (E1 : tread (repeat 0 (Z.to_nat inputs)) a = 0).
      { unfold tread. destruct (nth_in_or_default (Z.to_nat a) (repeat 0 (Z.to_nat inputs)) 0) as [Hi|Hd]; [|exact Hd].
        eapply repeat_spec, Hi. }
      assert (E2 : tread [] a = 0) by (unfold tread; destruct (Z.to_nat a); reflexivity).
      rewrite E1, E2. rewrite !trun_zero. reflexivity. }
    assert (Hrun : forall w, Forall (input inputs) w ->
      entry L (run (vec_step ds) (map (fun _ => 1) ds) w) (trun T 1 w)).
    { intros w Hw. rewrite Htr.
      apply (trun_ok (vec_step ds) (map (fun _ => 1) ds) inputs (vecs ds) L rows Hf w 0 _ F2 Hw). }
    assert (Hrun' : forall w, Forall (input inputs) w ->
      if all_zero (map (fun d => trun (s_rows d) 1 w) ds) then trun T 1 w = 0
      else exists i, nth_error L i = Some (map (fun d => trun (s_rows d) 1 w) ds) /\ trun T 1 w = Z.of_nat i + 1).
    { intros w Hw. specialize (Hrun w Hw). rewrite vec_run_ones in Hrun by exact ds_ne.
      rewrite vecw_ones in Hrun. destruct (all_zero _); exact Hrun. }
    constructor; cbn [m_states m_inputs m_stops m_table].
    - exact HT.
    - unfold zlen. lia.
    - reflexivity.
    - rewrite zlen_cons. unfold zlen. rewrite map_length. reflexivity.
    - intros row [<-|Hr].
      + split; [unfold zlen; rewrite repeat_length; lia|]. intros x Hx. apply repeat_spec in Hx. subst.
        pose proof (zlen_nonneg L). lia.
      + apply in_map_iff in Hr. destruct Hr as (r & <- & Hr). apply In_nth_error in Hr. destruct Hr as (k & Hk).
        destruct (F4 k r Hk) as ((cur & C1 & (C2 & _)) & C3 & C4). split; [exact C2|].
        intros x Hx. specialize (C4 x Hx). lia.
    - intros s a Hs Ha. destruct (Z.eqb_spec s 0) as [->|Hs0].
      + rewrite lookup_zero by auto. f_equal. unfold T. cbn [Z.to_nat nth]. unfold tread.
        destruct (nth_in_or_default (Z.to_nat a) (repeat 0 (Z.to_nat inputs)) 0) as [Hi|Hd]; [|symmetry; exact Hd].
        symmetry. eapply repeat_spec, Hi.
      + destruct (Hrows s) as (r & Er & ->); [lia|].
        destruct (F4 _ r Er) as ((cur & C1 & (C2 & C3 & _)) & _).
        destruct (Z.eqb_spec a 0) as [->|Ha0].
        * rewrite lookup_zero by auto. f_equal. symmetry. exact C3.
        * replace s with (Z.of_nat (Z.to_nat (s - 1)) + 1) at 1 by lia.
          rewrite (Hlook (Z.to_nat (s - 1)) (fst r) (snd r + 1)).
          -- rewrite zread_cell by lia. f_equal. unfold cell, znth, tread.
             replace (a <? 0) with false by lia.
             destruct (nth_error (fst r) (Z.to_nat a)) as [x|] eqn:Ex.
             ++ symmetry. apply nth_error_nth. exact Ex.
             ++ apply nth_error_None in Ex. unfold zlen in C2. lia.
          -- rewrite nth_error_map, Er. reflexivity.
          -- lia.
    - intros w Hw. pose proof (entry_bound _ _ _ (Hrun w Hw)) as Hb. split; [lia|].
      specialize (Hrun' w Hw).
      assert (Hz : all_zero (map (fun d => trun (s_rows d) 1 w) ds) = true <->
                   forall p, In p pats -> run (set_step p) [0%nat] w = None).
      { pose proof Hds as HF. clear - HF Hw. induction HF as [|p d ps ds' H _ IH]; cbn [map all_zero forallb].
        - split; [intros _ p []|reflexivity].
        - unfold all_zero in *. cbn [forallb]. rewrite andb_true_iff, Z.eqb_eq, IH.
          destruct (so_run _ _ _ H w Hw) as [Hs _]. rewrite Hs. split.
          + intros [H1 H2] p' [<-|Hp]; auto.
          + intros Hall. split; [apply Hall; left; reflexivity|intros; apply Hall; right; assumption]. }
      rewrite <- Hz. destruct (all_zero _).
      + split; [reflexivity|intros _; exact Hrun'].
      + destruct Hrun' as (i & _ & Hi). split; [lia|discriminate].
    - intros w Hw Hn. specialize (Hrun' w Hw). rewrite <- (stop_vec w Hw Hn 1) by lia.
      destruct (all_zero _) eqn:Ez.
      + rewrite Hrun'. unfold tread. cbn [Z.to_nat nth]. symmetry.
        apply stop_zero, Ez.
      + destruct Hrun' as (i & Hi & ->). unfold tread.
        replace (Z.to_nat (Z.of_nat i + 1)) with (S i) by lia. cbn [nth].
        apply nth_error_nth. rewrite nth_error_map, Hi. reflexivity.
    - intros s Hs. destruct (nth_error L (Z.to_nat (s - 1))) as [v|] eqn:Ev.
      2:{ apply nth_error_None in Ev. unfold zlen in Hs. lia. }
      destruct (N3 v (nth_error_In _ _ Ev)) as (w & Hw & Hfw). exists w. split; [exact Hfw|].
      specialize (Hrun w Hfw). rewrite Hw in Hrun. destruct Hrun as (i & Hi & ->).
      assert (i = Z.to_nat (s - 1)); [|lia].
      apply (proj1 (NoDup_nth_error L) N1); [apply nth_error_Some; congruence|congruence].
    - intros w w' Hw Hw'. pose proof (Hrun' w Hw) as R1. pose proof (Hrun' w' Hw') as R2.
      split.
      + intros He. destruct (all_zero (map (fun d => trun (s_rows d) 1 w) ds)) eqn:Z1,
                    (all_zero (map (fun d => trun (s_rows d) 1 w') ds)) eqn:Z2.
        * assert (G : forall v v', List.length v = List.length v' -> all_zero v = true -> all_zero v' = true -> v = v').
          { induction v as [|x v IH]; intros [|x' v'] Hl' A1 A2; cbn in *; try congruence.
            apply andb_true_iff in A1, A2. destruct A1, A2. f_equal; [lia|]. apply IH; auto. }
          apply G; [rewrite !map_length; reflexivity|assumption|assumption].
        * destruct R2 as (i & _ & Hi). lia.
        * destruct R1 as (i & _ & Hi). lia.
        * destruct R1 as (i & Hi & Ei), R2 as (j & Hj & Ej). assert (i = j) by lia. subst. congruence.
      + intros He. rewrite He in R1. destruct (all_zero _).
        * congruence.
        * destruct R1 as (i & Hi & Ei), R2 as (j & Hj & Ej).
          assert (i = j); [|congruence].
          apply (proj1 (NoDup_nth_error L) N1); [apply nth_error_Some; congruence|congruence].
    - unfold tread. change (Z.to_nat 1) with 1%nat. cbn [nth]. apply nth_error_nth.
      destruct L as [|v L']; [discriminate|]. cbn in F2. injection F2 as ->. cbn [map nth_error].
      f_equal. exact (stop_ones inputs pats ds Hds 1).
    - reflexivity.
    - destruct (explore_first _ _ _ _ _ _ _ Hex) as (row & k & rest & -> & H). exact H.
  Qed.
End Combine.
