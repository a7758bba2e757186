(** Correctness of the exploration loop and of the pattern automata. *)
From Verif Require Import Base Regex.
Open Scope Z_scope.

(** * Bounded loops *)
Fixpoint niter {S R : Type} (n : nat) (f : S -> S + R) (s : S) : S + R :=
  match n with
  | O => inl s
  | S n' => match f s with inl s' => niter n' f s' | inr r => inr r end
  end.

Lemma niter_add {S R} (f : S -> S + R) : forall a b s,
  niter (a + b) f s = match niter a f s with inl s' => niter b f s' | inr r => inr r end.
Proof.
  induction a as [|a IH]; intros b s; cbn [Nat.add niter]; [reflexivity|].
  destruct (f s); [apply IH|reflexivity].
Qed.

Lemma piter_niter {S R} (f : S -> S + R) : forall p s, piter p f s = niter (Pos.to_nat p) f s.
Proof.
  induction p as [p IH|p IH|]; intros s.
  - rewrite Pos2Nat.inj_xI. cbn [piter niter]. destruct (f s) as [s'|r]; [|reflexivity].
    replace (2 * Pos.to_nat p)%nat with (Pos.to_nat p + Pos.to_nat p)%nat by lia.
    rewrite niter_add, IH. destruct (niter (Pos.to_nat p) f s'); [apply IH|reflexivity].
  - rewrite Pos2Nat.inj_xO. cbn [piter].
    replace (2 * Pos.to_nat p)%nat with (Pos.to_nat p + Pos.to_nat p)%nat by lia.
    rewrite niter_add, IH. destruct (niter (Pos.to_nat p) f s); [apply IH|reflexivity].
  - cbn [piter]. change (Pos.to_nat 1) with 1%nat. cbn [niter]. destruct (f s); reflexivity.
Qed.

Lemma F2_len {X Y} (P : X -> Y -> Prop) l l' : Forall2 P l l' -> List.length l = List.length l'.
Proof. induction 1; cbn; congruence. Qed.

(** * Exploration *)
Section Explore.
  Context {A : Type}.
  Variable eqb : A -> A -> bool.
  Hypothesis eqb_spec : forall x y, eqb x y = true <-> x = y.
  Variable step : A -> Z -> option A.
  Variable start : A.
  Variable inputs : Z.
  Hypothesis Hin : 1 <= inputs.
  Variable U : list A.
  Hypothesis Ustart : In start U.
  Hypothesis Ustep : forall x a y, In x U -> step x a = Some y -> In y U.

  (** Run of a word. *)
  Fixpoint run (x : A) (w : list Z) : option A :=
    match w with
    | [] => Some x
    | a :: w' => match step x a with Some y => run y w' | None => None end
    end.

  Lemma run_app x w1 : forall w2, run x (w1 ++ w2) =
    match run x w1 with Some y => run y w2 | None => None end.
  Proof.
    revert x. induction w1 as [|a w1 IH]; intros x w2; cbn [app run]; [reflexivity|].
    destruct (step x a); [apply IH|reflexivity].
  Qed.

  Definition input (a : Z) : Prop := 1 <= a < inputs.

  Definition entry (L : list A) (o : option A) (z : Z) : Prop :=
    match o with
    | None => z = 0
    | Some x => exists i, nth_error L i = Some x /\ z = Z.of_nat i + 1
    end.

  Lemma entry_mono L e o z : entry L o z -> entry (L ++ e) o z.
  Proof.
    destruct o as [x|]; cbn; [|auto]. intros (i & Hi & ->). exists i. split; [|reflexivity].
    rewrite nth_error_app1; [exact Hi|]. apply nth_error_Some. congruence.
  Qed.

  Lemma entry_bound L o z : entry L o z -> 0 <= z <= zlen L.
  Proof.
    destruct o as [x|]; cbn.
    - intros (i & Hi & ->). assert (nth_error L i <> None) as Hn by congruence.
      apply nth_error_Some in Hn. unfold zlen. lia.
    - intros ->. pose proof (zlen_nonneg L). lia.
  Qed.

  Lemma find_index_some x : forall L i j, find_index eqb x L i = Some j ->
    exists k, nth_error L k = Some x /\ j = i + Z.of_nat k.
  Proof.
    induction L as [|y L IH]; intros i j H; cbn [find_index] in H; [discriminate|].
    destruct (eqb y x) eqn:E.
    - apply eqb_spec in E. injection H as <-. subst. exists 0%nat. split; [reflexivity|lia].
    - destruct (IH _ _ H) as (k & Hk & ->). exists (S k). split; [exact Hk|lia].
  Qed.

  Lemma find_index_none x : forall L i, find_index eqb x L i = None -> ~ In x L.
  Proof.
    induction L as [|y L IH]; intros i H; cbn [find_index] in H; [tauto|].
    destruct (eqb y x) eqn:E; [discriminate|].
    intros [->|Hi]; [|eapply IH; eauto].
    assert (eqb x x = true) by (apply eqb_spec; reflexivity). congruence.
  Qed.

  Definition nice (L : list A) : Prop :=
    NoDup L /\ incl L U /\
    forall x, In x L -> exists w, run start w = Some x /\ Forall input w.

  Lemma NoDup_snoc (L : list A) x : NoDup L -> ~ In x L -> NoDup (L ++ [x]).
  Proof.
    induction L as [|y L IH]; intros HN Hx; cbn.
    - constructor; [tauto|constructor].
    - inversion HN; subst. constructor.
      + rewrite in_app_iff. cbn. intros [H|[H|[]]]; [tauto|]. subst. apply Hx. left. reflexivity.
      + apply IH; [assumption|]. intros H. apply Hx. right. exact H.
  Qed.

  Lemma nice_add L cur a x : nice L -> In cur L -> input a -> step cur a = Some x -> ~ In x L ->
    nice (L ++ [x]).
  Proof.
    intros (N1 & N2 & N3) Hc Ha Hs Hn. split; [|split].
    - apply NoDup_snoc; assumption.
    - intros y Hy. apply in_app_or in Hy. destruct Hy as [Hy|[<-|[]]]; [apply N2, Hy|].
      eapply Ustep; [apply N2, Hc|exact Hs].
    - intros y Hy. apply in_app_or in Hy. destruct Hy as [Hy|[<-|[]]]; [apply N3, Hy|].
      destruct (N3 cur Hc) as (w & Hw & Hf). exists (w ++ [a]). split.
      + rewrite run_app, Hw. cbn [run]. rewrite Hs. reflexivity.
      + apply Forall_app. split; [exact Hf|]. constructor; [exact Ha|constructor].
  Qed.

  Lemma make_row_gen cur : forall as_ L row, nice L -> In cur L -> Forall input as_ ->
    exists e es, fold_left (row_step eqb step cur) as_ (L, row) = (L ++ e, row ++ es) /\
      nice (L ++ e) /\ Forall2 (fun a z => entry (L ++ e) (step cur a) z) as_ es.
  Proof.
    induction as_ as [|a as_ IH]; intros L row HL Hc Hf.
    - exists [], []. cbn [fold_left]. rewrite !app_nil_r. split; [reflexivity|]. split; [exact HL|constructor].
    - inversion Hf as [|? ? Ha Hf']; subst. cbn [fold_left]. unfold row_step at 2.
      destruct (step cur a) as [x|] eqn:Es.
      + destruct (find_index eqb x L 0) as [j|] eqn:Ef.
        * destruct (IH L (row ++ [j + 1]) HL Hc Hf') as (e & es & E1 & E2 & E3).
          exists e, ((j + 1) :: es). rewrite E1. rewrite <- app_assoc. cbn [app].
          split; [reflexivity|]. split; [exact E2|]. constructor; [|exact E3].
          rewrite Es. apply entry_mono. destruct (find_index_some _ _ _ _ Ef) as (k & Hk & ->).
          exists k. split; [exact Hk|lia].
        * pose proof (nice_add L cur a x HL Hc Ha Es (find_index_none _ _ _ Ef)) as HL'.
          destruct (IH (L ++ [x]) (row ++ [zlen L + 1]) HL') as (e & es & E1 & E2 & E3).
          { apply in_or_app. left. exact Hc. }
          { exact Hf'. }
          exists (x :: e), ((zlen L + 1) :: es). rewrite E1. rewrite <- !app_assoc. cbn [app].
          rewrite <- app_assoc in E2, E3. cbn [app] in E2, E3.
          split; [reflexivity|]. split; [exact E2|]. constructor.
          -- rewrite Es. exists (List.length L). split; [|reflexivity].
             rewrite nth_error_app2 by lia. rewrite Nat.sub_diag. reflexivity.
          -- exact E3.
      + destruct (IH L (row ++ [0]) HL Hc Hf') as (e & es & E1 & E2 & E3).
        exists e, (0 :: es). rewrite E1. rewrite <- app_assoc. cbn [app].
        split; [reflexivity|]. split; [exact E2|]. constructor; [|exact E3].
        rewrite Es. reflexivity.
  Qed.

  Lemma inputs_from_in : forall n a b, In b (inputs_from a n) <-> a <= b < a + Z.of_nat n.
  Proof.
    induction n as [|n IH]; intros a b; cbn [inputs_from In]; [lia|].
    rewrite IH. lia.
  Qed.
  Lemma inputs_from_length : forall n a, List.length (inputs_from a n) = n.
  Proof. induction n as [|n IH]; intros a; cbn; [reflexivity|]. rewrite IH. reflexivity. Qed.
  Lemma inputs_from_nth : forall n a k, (k < n)%nat -> nth_error (inputs_from a n) k = Some (a + Z.of_nat k).
  Proof.
    induction n as [|n IH]; intros a [|k] H; cbn [inputs_from nth_error]; try lia.
    - f_equal. lia.
    - rewrite IH by lia. f_equal. lia.
  Qed.

  (** A row that lists the successors of [cur]. *)
  Definition good_row (L : list A) (cur : A) (row : list Z) : Prop :=
    zlen row = inputs /\ tread row 0 = 0 /\
    forall a, input a -> entry L (step cur a) (tread row a).

  Lemma good_row_mono L e cur row : good_row L cur row -> good_row (L ++ e) cur row.
  Proof.
    intros (G1 & G2 & G3). split; [exact G1|]. split; [exact G2|].
    intros a Ha. apply entry_mono, G3, Ha.
  Qed.

  Lemma make_row_ok cur L : nice L -> In cur L ->
    exists e row, make_row eqb step inputs cur L = (L ++ e, row) /\ nice (L ++ e) /\
      good_row (L ++ e) cur row /\ (forall z, In z row -> 0 <= z <= zlen (L ++ e)).
  Proof.
    intros HL Hc. unfold make_row.
    destruct (make_row_gen cur (inputs_from 1 (Z.to_nat (inputs - 1))) L [0] HL Hc)
      as (e & es & E1 & E2 & E3).
    { apply Forall_forall. intros a Ha. apply inputs_from_in in Ha. unfold input. lia. }
    exists e, (0 :: es). rewrite E1. cbn [app]. split; [reflexivity|]. split; [exact E2|].
    pose proof (F2_len _ _ _ E3) as Hlen. rewrite inputs_from_length in Hlen.
    split; [split; [|split]|].
    - rewrite zlen_cons. unfold zlen. lia.
    - reflexivity.
    - intros a Ha. unfold input in Ha.
      assert (Hk : nth_error (inputs_from 1 (Z.to_nat (inputs - 1))) (Z.to_nat (a - 1)) = Some a).
      { rewrite inputs_from_nth by lia. f_equal. lia. }
      assert (G : forall l es', Forall2 (fun a z => entry (L ++ e) (step cur a) z) l es' ->
                forall k b, nth_error l k = Some b -> entry (L ++ e) (step cur b) (nth k es' 0)).
      { induction 1 as [|b z l es' Hz _ IH]; intros [|k] b' Hb; cbn in Hb |- *; try discriminate.
        - injection Hb as <-. exact Hz.
        - apply IH, Hb. }
      unfold tread. replace (Z.to_nat a) with (S (Z.to_nat (a - 1))) by lia. cbn [nth].
      eapply G; eauto.
    - intros z [<-|Hz].
      + pose proof (zlen_nonneg (L ++ e)). lia.
      + clear - E3 Hz. induction E3 as [|b z' l es' Hb _ IH]; [contradiction|].
        destruct Hz as [<-|Hz]; [eapply entry_bound; eauto|]. apply IH, Hz.
  Qed.

  Definition row_ok (L : list A) (k : nat) (r : list Z * Z) : Prop :=
    (exists cur, nth_error L k = Some cur /\ good_row L cur (fst r)) /\
    Z.of_nat k + 1 <= snd r <= zlen L /\ forall z, In z (fst r) -> 0 <= z <= snd r.

  Definition J (st : nat * list A * list (list Z * Z)) : Prop :=
    let '(p, L, rows) := st in
    nice L /\ nth_error L 0 = Some start /\ (p <= List.length L)%nat /\ List.length rows = p /\
    forall k r, nth_error rows k = Some r -> row_ok L k r.

  Definition final (res : list A * list (list Z * Z)) : Prop :=
    let '(L, rows) := res in
    nice L /\ nth_error L 0 = Some start /\ List.length rows = List.length L /\
    forall k r, nth_error rows k = Some r -> row_ok L k r.

  Lemma round_ok st : J st ->
    match explore_round eqb step inputs st with
    | inl st' => J st' /\ fst (fst st') = S (fst (fst st))
    | inr r => final r
    end.
  Proof.
    destruct st as [[p L] rows]. intros (H1 & H2 & H3 & H4 & H5). unfold explore_round.
    destruct (nth_error L p) as [cur|] eqn:Ec.
    - destruct (make_row_ok cur L H1 (nth_error_In _ _ Ec)) as (e & row & -> & N & G & Hb).
      cbn [fst]. split; [|reflexivity]. unfold J.
      assert (Hp : (p < List.length L)%nat) by (apply nth_error_Some; congruence).
      split; [exact N|]. split.
      { rewrite nth_error_app1; [exact H2|]. apply nth_error_Some. congruence. }
      split; [rewrite app_length; lia|]. split; [rewrite app_length; cbn [List.length]; lia|].
      intros k r Hr. destruct (Nat.lt_ge_cases k (List.length rows)) as [Hk|Hk].
      + rewrite nth_error_app1 in Hr by exact Hk.
        destruct (H5 k r Hr) as ((c & C1 & C2) & C3 & C4). split; [|split].
        * exists c. split; [|apply good_row_mono, C2].
          rewrite nth_error_app1; [exact C1|]. apply nth_error_Some. congruence.
        * rewrite zlen_app. pose proof (zlen_nonneg e). lia.
        * exact C4.
      + rewrite nth_error_app2 in Hr by exact Hk.
        destruct (k - List.length rows)%nat as [|k'] eqn:Ek.
        * cbn in Hr. injection Hr as <-. assert (k = p) by lia. subst k. cbn [fst snd].
          split; [|split].
          -- exists cur. split; [|exact G]. rewrite nth_error_app1; [exact Ec|exact Hp].
          -- cbn [snd]. unfold zlen. rewrite app_length. lia.
          -- exact Hb.
        * cbn in Hr. destruct k'; discriminate.
    - unfold final. split; [exact H1|]. split; [exact H2|]. split; [|exact H5].
      apply nth_error_None in Ec. lia.
  Qed.

  Lemma loop_ok : forall n st, J st -> (List.length U < n + fst (fst st))%nat ->
    exists r, niter n (explore_round eqb step inputs) st = inr r /\ final r.
  Proof.
    induction n as [|n IH]; intros st HJ Hn.
    - exfalso. destruct st as [[p L] rows]. destruct HJ as ((N1 & N2 & _) & _ & H3 & _).
      cbn [fst] in Hn. pose proof (NoDup_incl_length N1 N2). lia.
    - cbn [niter]. pose proof (round_ok st HJ) as Hr.
      destruct (explore_round eqb step inputs st) as [st'|r].
      + destruct Hr as [HJ' Hp]. apply IH; [exact HJ'|]. lia.
      + eauto.
  Qed.

  Theorem explore_ok fuel : (List.length U < Pos.to_nat fuel)%nat ->
    exists L rows, explore eqb step fuel inputs start = Ok (L, rows) /\ final (L, rows).
  Proof.
    intros Hf. unfold explore. rewrite piter_niter.
    destruct (loop_ok (Pos.to_nat fuel) (0%nat, [start], [])) as ([L rows] & -> & Hfin).
    - unfold J. split; [|split; [reflexivity|split; [cbn; lia|split; [reflexivity|]]]].
      + split; [|split].
        * constructor; [tauto|constructor].
        * intros x [<-|[]]. exact Ustart.
        * intros x [<-|[]]. exists []. split; [reflexivity|constructor].
      + intros [|k] r Hr; discriminate.
    - cbn [fst]. lia.
    - eauto.
  Qed.

  (** Running the numbered table follows [run]. *)
  Fixpoint trun (rows : list (list Z)) (s : Z) (w : list Z) : Z :=
    match w with
    | [] => s
    | a :: w' => if s =? 0 then 0 else trun rows (tread (nth (Z.to_nat s) rows []) a) w'
    end.

  Lemma trun_zero rows w : trun rows 0 w = 0.
  Proof. destruct w; reflexivity. Qed.

  Lemma trun_ok L rows : final (L, rows) -> forall w i x, nth_error L i = Some x -> Forall input w ->
    entry L (run x w) (trun ([] :: map fst rows) (Z.of_nat i + 1) w).
  Proof.
    intros (F1 & F2 & F3 & F4). induction w as [|a w IH]; intros i x Hx Hf; cbn [trun run].
    - exists i. split; [exact Hx|reflexivity].
    - inversion Hf as [|? ? Ha Hf']; subst.
      replace (Z.of_nat i + 1 =? 0) with false by lia.
      replace (Z.to_nat (Z.of_nat i + 1)) with (S i) by lia. cbn [nth].
      assert (Hi : (i < List.length rows)%nat).
      { rewrite F3. apply nth_error_Some. congruence. }
      destruct (nth_error rows i) as [r|] eqn:Er; [|apply nth_error_None in Er; lia].
      replace (nth i (map fst rows) []) with (fst r).
      2:{ symmetry. apply nth_error_nth. rewrite nth_error_map, Er. reflexivity. }
      destruct (F4 i r Er) as ((c & C1 & C2) & _). rewrite Hx in C1. injection C1 as <-.
      destruct C2 as (_ & _ & C2). specialize (C2 a Ha).
      destruct (step x a) as [y|]; cbn [entry] in C2.
      + destruct C2 as (j & Hj & ->). apply IH; assumption.
      + rewrite C2, trun_zero. reflexivity.
  Qed.
End Explore.

(** * What a pattern matches (specification) *)
Fixpoint star_then (it : ritem) (rest : list Z -> bool) (w : list Z) : bool :=
  rest w || match w with a :: w' => isEdge it a && star_then it rest w' | [] => false end.

Fixpoint pm (items : list ritem) (w : list Z) : bool :=
  match items with
  | [] => match w with [] => true | _ => false end
  | it :: items' =>
      match r_opt it with
      | ONone => match w with a :: w' => isEdge it a && pm items' w' | [] => false end
      | OPlus => match w with a :: w' => isEdge it a && star_then it (pm items') w' | [] => false end
      | OStar => star_then it (pm items') w
      end
  end.

Lemma pm_nil items : pm items [] = forallb nullable items.
Proof.
  induction items as [|it items IH]; [reflexivity|]. cbn [pm forallb]. unfold nullable at 1.
  destruct (r_opt it); cbn [andb]; try reflexivity. cbn [star_then]. rewrite orb_false_r. exact IH.
Qed.

(** What may follow once position [p] has matched the last symbol. *)
Definition cont (items : list ritem) (p : nat) (x : list Z) : bool :=
  match p with
  | O => pm items x
  | S i =>
      match nth_error items i with
      | Some it => if repeated it then star_then it (pm (skipn p items)) x else pm (skipn p items) x
      | None => false
      end
  end.

Lemma skipn_pre {X} (pre l : list X) : skipn (List.length pre) (pre ++ l) = l.
Proof. induction pre; cbn; auto. Qed.
Lemma nth_pre {X} (pre : list X) x l : nth_error (pre ++ x :: l) (List.length pre) = Some x.
Proof. rewrite nth_error_app2 by lia. rewrite Nat.sub_diag. reflexivity. Qed.
Lemma skipn_S_pre {X} (pre : list X) x l : skipn (S (List.length pre)) (pre ++ x :: l) = l.
Proof. induction pre; cbn in *; auto. Qed.

Lemma pm_cons_first : forall its pre a x,
  pm its (a :: x) = true <->
  exists f, In f (first_from (S (List.length pre)) its) /\
            edge_at (pre ++ its) f a = true /\ cont (pre ++ its) f x = true.
Proof.
  induction its as [|it its IH]; intros pre a x.
  - cbn. split; [discriminate|]. intros (f & [] & _).
  - assert (Hcont : cont (pre ++ it :: its) (S (List.length pre)) x =
              if repeated it then star_then it (pm its) x else pm its x).
    { unfold cont. rewrite nth_pre, skipn_S_pre. reflexivity. }
    assert (Hedge : edge_at (pre ++ it :: its) (S (List.length pre)) a = isEdge it a).
    { unfold edge_at. rewrite nth_pre. reflexivity. }
    assert (Hrest : pm its (a :: x) = true <->
       exists f, In f (first_from (S (S (List.length pre))) its) /\
            edge_at (pre ++ it :: its) f a = true /\ cont (pre ++ it :: its) f x = true).
    { specialize (IH (pre ++ [it]) a x). rewrite app_length, <- app_assoc in IH.
      cbn [List.length app] in IH. replace (List.length pre + 1)%nat with (S (List.length pre)) in IH by lia.
      exact IH. }
    cbn [pm first_from]. unfold nullable, repeated in *. destruct (r_opt it) eqn:Eo.
    + split.
      * intros H. apply andb_true_iff in H. destruct H as [H1 H2].
        exists (S (List.length pre)). split; [left; reflexivity|]. rewrite Hedge, Hcont. auto.
      * intros (f & [<-|[]] & H1 & H2). rewrite Hedge in H1. rewrite Hcont in H2. rewrite H1. exact H2.
    + cbn [star_then]. rewrite orb_true_iff, andb_true_iff. rewrite Hrest. split.
      * intros [(f & F1 & F2 & F3)|[H1 H2]].
        -- exists f. split; [right; exact F1|auto].
        -- exists (S (List.length pre)). split; [left; reflexivity|]. rewrite Hedge, Hcont. auto.
      * intros (f & [<-|F1] & F2 & F3).
        -- right. rewrite Hedge in F2. rewrite Hcont in F3. auto.
        -- left. exists f. auto.
    + split.
      * intros H. apply andb_true_iff in H. destruct H as [H1 H2].
        exists (S (List.length pre)). split; [left; reflexivity|]. rewrite Hedge, Hcont. auto.
      * intros (f & [<-|[]] & H1 & H2). rewrite Hedge in H1. rewrite Hcont in H2. rewrite H1. exact H2.
Qed.

Lemma cont_step items p a x :
  cont items p (a :: x) = true <->
  exists f, In f (followpos items p) /\ edge_at items f a = true /\ cont items f x = true.
Proof.
  destruct p as [|i].
  - cbn [cont followpos]. apply (pm_cons_first items [] a x).
  - cbn [cont followpos]. destruct (nth_error items i) as [it|] eqn:E.
    + assert (Hi : (i < List.length items)%nat) by (apply nth_error_Some; congruence).
      assert (Hr : pm (skipn (S i) items) (a :: x) = true <->
        exists f, In f (first_from (S (S i)) (skipn (S i) items)) /\
          edge_at items f a = true /\ cont items f x = true).
      { pose proof (pm_cons_first (skipn (S i) items) (firstn (S i) items) a x) as K.
        rewrite firstn_skipn in K. rewrite firstn_length in K.
        replace (Nat.min (S i) (List.length items)) with (S i) in K by lia. exact K. }
      destruct (repeated it) eqn:Er.
      * cbn [star_then]. rewrite orb_true_iff, andb_true_iff, Hr. split.
        -- intros [(f & F1 & F2)|[H1 H2]].
           ++ exists f. split; [right; exact F1|exact F2].
           ++ exists (S i). split; [left; reflexivity|]. split.
              ** cbn [edge_at]. rewrite E. exact H1.
              ** cbn [cont]. rewrite E, Er. exact H2.
        -- intros (f & [<-|F1] & F2 & F3).
           ++ right. cbn [edge_at] in F2. rewrite E in F2. cbn [cont] in F3. rewrite E, Er in F3. auto.
           ++ left. exists f. auto.
      * exact Hr.
    + split; [discriminate|]. intros (f & F1 & F2 & F3).
      apply nth_error_None in E. rewrite skipn_all2 in F1 by lia. contradiction.
Qed.

Lemma edge_at_range items f a : edge_at items f a = true -> (1 <= f <= List.length items)%nat.
Proof.
  destruct f as [|i]; cbn; [discriminate|]. destruct (nth_error items i) eqn:E; [|discriminate].
  intros _. assert (nth_error items i <> None) as Hn by congruence. apply nth_error_Some in Hn. lia.
Qed.

Lemma mem_in x l : mem x l = true <-> In x l.
Proof.
  unfold mem. rewrite existsb_exists. split.
  - intros (y & Hy & E). apply Nat.eqb_eq in E. subst. exact Hy.
  - intros H. exists x. split; [exact H|apply Nat.eqb_refl].
Qed.

Lemma next_set_in items S0 a f :
  In f (next_set items S0 a) <->
  (exists p, In p S0 /\ In f (followpos items p)) /\ edge_at items f a = true.
Proof.
  unfold next_set. rewrite filter_In, andb_true_iff, existsb_exists, in_seq. split.
  - intros (_ & (p & P1 & P2) & He). split; [|exact He]. exists p. split; [exact P1|]. apply mem_in, P2.
  - intros ((p & P1 & P2) & He). pose proof (edge_at_range _ _ _ He). split; [lia|].
    split; [|exact He]. exists p. split; [exact P1|]. apply mem_in, P2.
Qed.

Definition acc (items : list ritem) (S0 : list nat) (x : list Z) : Prop :=
  exists p, In p S0 /\ cont items p x = true.

Lemma acc_step items S0 a x : acc items S0 (a :: x) <-> acc items (next_set items S0 a) x.
Proof.
  unfold acc. split.
  - intros (p & P1 & P2). apply cont_step in P2. destruct P2 as (f & F1 & F2 & F3).
    exists f. split; [|exact F3]. apply next_set_in. split; [exists p; auto|exact F2].
  - intros (f & F1 & F2). apply next_set_in in F1. destruct F1 as ((p & P1 & P2) & He).
    exists p. split; [exact P1|]. apply cont_step. exists f. auto.
Qed.

Lemma acc_run items : forall w S0,
  acc items S0 w <-> match run (set_step items) S0 w with Some S1 => acc items S1 [] | None => False end.
Proof.
  induction w as [|a w IH]; intros S0; cbn [run]; [reflexivity|].
  rewrite acc_step. unfold set_step at 1. destruct (next_set items S0 a) as [|y s] eqn:E.
  - split; [|contradiction]. intros (p & [] & _).
  - apply IH.
Qed.

(** Sets reached by at least one symbol contain item positions only. *)
Lemma run_positions items : forall w S0 S1, w <> [] -> run (set_step items) S0 w = Some S1 ->
  forall p, In p S1 -> (1 <= p <= List.length items)%nat.
Proof.
  intros w. induction w as [|a w IH]; intros S0 S1 Hw Hr p Hp; [contradiction|].
  cbn [run] in Hr. unfold set_step at 1 in Hr. destruct (next_set items S0 a) as [|y s] eqn:E; [discriminate|].
  destruct w as [|b w].
  - cbn [run] in Hr. injection Hr as <-. rewrite <- E in Hp. apply next_set_in in Hp.
    destruct Hp as [_ He]. eapply edge_at_range; eauto.
  - eapply IH; [discriminate|exact Hr|exact Hp].
Qed.

Lemma cont_nil items p : (1 <= p <= List.length items)%nat -> cont items p [] = isTerminator items p.
Proof.
  destruct p as [|i]; intros H; [lia|]. cbn [cont isTerminator].
  destruct (nth_error items i) as [it|] eqn:E; [|reflexivity].
  destruct (repeated it); cbn [star_then]; rewrite ?orb_false_r; apply pm_nil.
Qed.

Theorem pm_run items w : w <> [] ->
  pm items w = match run (set_step items) [0%nat] w with
               | Some S1 => existsb (isTerminator items) S1
               | None => false
               end.
Proof.
  intros Hw. pose proof (acc_run items w [0%nat]) as H.
  assert (H0 : acc items [0%nat] w <-> pm items w = true).
  { unfold acc. split.
    - intros (p & [<-|[]] & Hp). exact Hp.
    - intros Hp. exists 0%nat. split; [left; reflexivity|exact Hp]. }
  destruct (run (set_step items) [0%nat] w) as [S1|] eqn:Er.
  - assert (H1 : acc items S1 [] <-> existsb (isTerminator items) S1 = true).
    { unfold acc. rewrite existsb_exists. split; intros (p & P1 & P2); exists p; (split; [exact P1|]).
      - rewrite <- cont_nil; [exact P2|]. eapply run_positions; eauto.
      - rewrite cont_nil; [exact P2|]. eapply run_positions; eauto. }
    destruct (pm items w), (existsb (isTerminator items) S1); try reflexivity; exfalso; intuition congruence.
  - destruct (pm items w); [exfalso; tauto|reflexivity].
Qed.

(** * The pattern automaton *)
Fixpoint sublists {X} (l : list X) : list (list X) :=
  match l with
  | [] => [[]]
  | x :: l' => sublists l' ++ map (cons x) (sublists l')
  end.

Lemma sublists_length {X} (l : list X) : List.length (sublists l) = (2 ^ List.length l)%nat.
Proof.
  induction l as [|x l IH]; cbn [sublists List.length]; [reflexivity|].
  rewrite app_length, map_length, IH. cbn [Nat.pow]. lia.
Qed.

Lemma filter_sublists {X} (f : X -> bool) l : In (filter f l) (sublists l).
Proof.
  induction l as [|x l IH]; cbn [filter sublists]; [left; reflexivity|].
  apply in_or_app. destruct (f x); [right|left; exact IH]. apply in_map, IH.
Qed.

Lemma nats_eqb_spec : forall a b, nats_eqb a b = true <-> a = b.
Proof.
  induction a as [|x a IH]; intros [|y b]; cbn; split; intros H; try congruence; try reflexivity.
  - apply andb_true_iff in H. destruct H as [H1 H2]. apply Nat.eqb_eq in H1. apply IH in H2. congruence.
  - injection H as -> ->. rewrite Nat.eqb_refl. apply IH. reflexivity.
Qed.

Definition regex_universe (items : list ritem) : list (list nat) :=
  sublists (0%nat :: seq 1 (List.length items)).

Lemma regex_universe_step items x a y :
  In x (regex_universe items) -> set_step items x a = Some y -> In y (regex_universe items).
Proof.
  intros _ H. unfold set_step in H. destruct (next_set items x a) eqn:E; [discriminate|].
  injection H as <-. rewrite <- E. unfold regex_universe. cbn [sublists]. apply in_or_app. left.
  apply filter_sublists.
Qed.

Lemma nil_sublists {X} (l : list X) : In [] (sublists l).
Proof. induction l; cbn; [left; reflexivity|]. apply in_or_app. left. exact IHl. Qed.

Lemma regex_universe_start items : In [0%nat] (regex_universe items).
Proof.
  unfold regex_universe. cbn [sublists]. apply in_or_app. right. apply in_map, nil_sublists.
Qed.

Lemma pow2_nat n : Z.of_nat (2 ^ n) = 2 ^ Z.of_nat n.
Proof.
  induction n as [|n IH]; [reflexivity|]. cbn [Nat.pow].
  rewrite Nat2Z.inj_succ, Z.pow_succ_r by lia. lia.
Qed.

Lemma regex_fuel_ok items : (List.length (regex_universe items) < Pos.to_nat (regex_fuel items))%nat.
Proof.
  unfold regex_universe. rewrite sublists_length. cbn [List.length]. rewrite seq_length.
  unfold regex_fuel. pose proof (pow2_nat (S (List.length items))) as H.
  unfold zlen. replace (Z.of_nat (List.length items) + 1) with (Z.of_nat (S (List.length items))) by lia.
  rewrite <- H. lia.
Qed.

(** Everything the later stages use of a pattern automaton. *)
Record simple_ok (inputs : Z) (items : list ritem) (d : sdfa) : Prop := {
  so_len  : zlen (s_stop d) = zlen (s_rows d);
  so_two  : 2 <= zlen (s_rows d);
  so_rows : forall s, 1 <= s < zlen (s_rows d) ->
              zlen (nth (Z.to_nat s) (s_rows d) []) = inputs /\
              forall a, 0 <= s_next d s a < zlen (s_rows d);
  so_run  : forall w, Forall (input inputs) w ->
              (trun (s_rows d) 1 w = 0 <-> run (set_step items) [0%nat] w = None) /\
              0 <= trun (s_rows d) 1 w < zlen (s_rows d);
  so_stop : forall w, Forall (input inputs) w -> w <> [] ->
              (tread (s_stop d) (trun (s_rows d) 1 w) =? 0) = negb (pm items w);
  so_start : tread (s_stop d) 1 = 0
}.

Theorem CreateDFA_ok inputs items : 1 <= inputs ->
  exists d, CreateDFA inputs items = Ok d /\ simple_ok inputs items d.
Proof.
  intros Hin. unfold CreateDFA.
  destruct (explore_ok nats_eqb nats_eqb_spec (set_step items) [0%nat] inputs Hin (regex_universe items)
              (regex_universe_start items) (regex_universe_step items) (regex_fuel items)
              (regex_fuel_ok items)) as (L & rows & -> & Hf).
  cbn [bind]. eexists. split; [reflexivity|]. pose proof Hf as (F1 & F2 & F3 & F4).
  assert (Hl : (1 <= List.length L)%nat).
  { destruct L; [discriminate|cbn; lia]. }
  assert (Hrun : forall w, Forall (input inputs) w ->
    entry L (run (set_step items) [0%nat] w) (trun ([] :: map fst rows) 1 w)).
  { intros w Hw. apply (trun_ok (set_step items) [0%nat] inputs (regex_universe items) L rows Hf w 0 [0%nat] F2 Hw). }
  constructor; cbn [s_rows s_stop].
  - unfold zlen. cbn [List.length]. rewrite !map_length, F3. reflexivity.
  - unfold zlen. cbn [List.length]. rewrite map_length. lia.
  - intros s Hs. unfold zlen in Hs. cbn [List.length] in Hs. rewrite map_length in Hs.
    unfold s_next. cbn [s_rows].
    replace (Z.to_nat s) with (S (Z.to_nat (s - 1))) by lia. cbn [nth].
    set (k := Z.to_nat (s - 1)). destruct (nth_error rows k) as [r|] eqn:Er.
    2:{ apply nth_error_None in Er. unfold k in Er. lia. }
    replace (nth k (map fst rows) []) with (fst r).
    2:{ symmetry. apply nth_error_nth. rewrite nth_error_map, Er. reflexivity. }
    destruct (F4 k r Er) as ((c & C1 & (C2 & _)) & C3 & C4). split; [exact C2|].
    intros a. unfold zlen. cbn [List.length]. rewrite map_length.
    destruct (nth_in_or_default (Z.to_nat a) (fst r) 0) as [Hi|Hd].
    + specialize (C4 _ Hi). unfold tread. unfold zlen in C3. lia.
    + unfold tread. rewrite Hd. lia.
  - intros w Hw. specialize (Hrun w Hw). split.
    + destruct (run (set_step items) [0%nat] w); cbn [entry] in Hrun.
      * destruct Hrun as (i & _ & Hi). split; [lia|discriminate].
      * split; [reflexivity|intros _; exact Hrun].
    + apply entry_bound in Hrun. unfold zlen in *. cbn [List.length]. rewrite map_length. lia.
  - intros w Hw Hne. specialize (Hrun w Hw). rewrite (pm_run items w Hne).
    destruct (run (set_step items) [0%nat] w) as [S1|]; cbn [entry] in Hrun.
    + destruct Hrun as (i & Hi & ->). unfold tread. replace (Z.to_nat (Z.of_nat i + 1)) with (S i) by lia.
      cbn [nth]. erewrite nth_error_nth by (rewrite nth_error_map, Hi; reflexivity).
      destruct (existsb _ S1); reflexivity.
    + rewrite Hrun. reflexivity.
  - destruct L as [|x L]; [discriminate|]. cbn in F2. injection F2 as ->. reflexivity.
Qed.

(** The successor under the code of an unknown name is missing whenever the
    successor under any other code below 256 is, or when no set occurs. *)
Lemma other_column items w c : 0 <= c < 256 \/ (forall it, In it items -> r_sym it <> RSet) ->
  (forall it, In it items -> r_sym it <> RChar 1) ->
  run (set_step items) [0%nat] (w ++ [c]) = None ->
  run (set_step items) [0%nat] (w ++ [1]) = None.
Proof.
  intros Hc Hno. rewrite !run_app. destruct (run (set_step items) [0%nat] w) as [S0|]; [|auto].
  cbn [run]. unfold set_step. destruct (next_set items S0 c) eqn:E; [|discriminate].
  intros _. destruct (next_set items S0 1) as [|f l] eqn:E1; [reflexivity|]. exfalso.
  assert (In f (next_set items S0 1)) as Hf by (rewrite E1; left; reflexivity).
  apply next_set_in in Hf. destruct Hf as [Hp He].
  assert (In f (next_set items S0 c)) as Hf.
  { apply next_set_in. split; [exact Hp|]. destruct f as [|i]; cbn [edge_at] in *; [discriminate|].
    destruct (nth_error items i) as [it|] eqn:Ei; [|discriminate].
    specialize (Hno it (nth_error_In _ _ Ei)). unfold isEdge in *.
    destruct (r_sym it) as [|ch] eqn:Es.
    { destruct Hc as [Hc|Hc]; [lia|]. exfalso. apply (Hc it (nth_error_In _ _ Ei) Es). }
    exfalso. apply Hno. f_equal. lia. }
  rewrite E in Hf. contradiction.
Qed.
