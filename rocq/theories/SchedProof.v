(** Every interleaving gives the result of running the threads one by one. *)
From Verif Require Import Base Spec Util Lexer Dfa Constraint Stream Builder Eval Filter Loader Run Worker Merge Sched.
Open Scope Z_scope.

Section P.
  Variable d : dfa.
  Variable ct : option ctable.
  Variable pj : pjunk.
  Variable start0 : wstart.
  Variable tl0 : list wtuple.
  Notation tstep := (thread_step d ct pj start0 tl0).
  Notation mstep := (main_step d pj).
  Notation sstep := (step_by d ct pj start0 tl0).
  Notation sched := (schedule d ct pj start0 tl0).
  Notation tres := (thread_result d ct pj start0 tl0).
  Notation all := (all_threads d ct pj start0 tl0).

  (** What a thread will still compute. *)
  Definition future (t : thread) : res (bytes * worker) :=
    match th_phase t with
    | Created => tres (th_id t) (th_chunk t)
    | Looping buf evs w =>
        w' <- worker_loop d (is_first (start_of start0 (th_id t))) (states_of d (start_of start0 (th_id t))) ct (pj_name pj) buf evs w ;;
        ul <- last_unit buf w' ;;
        Ok (buf, mkWorker (ws_ss w') (ws_qs w') (ws_cur w') ul (ws_tl w'))
    | Finished r => Ok r
    end.

  Lemma tstep_future t r : tstep t = Some r ->
    match r with
    | Ok t' => th_id t' = th_id t /\ th_chunk t' = th_chunk t /\ future t' = future t
    | UB _ => exists e, future t = UB e
    end.
  Proof.
    unfold thread_step, future. destruct (th_phase t) as [|buf [|ev evs] w|x] eqn:Ep; intros H; [| | |discriminate]; injection H as <-.
    - unfold thread_result, executeWorkerAutomaton. destruct (th_chunk t) as [s|]; [|eauto].
      change (match th_id t with O => start0 | S _ => Speculate end) with (start_of start0 (th_id t)).
      change (match th_id t with O => tl0 | S _ => [] end) with (tuples_of tl0 (th_id t)).
      change (match start_of start0 (th_id t) with
              | Continue _ _ _ => None
              | First => Some [1]
              | Speculate => Some (map Z.of_nat (seq 0 (List.length (d_accept d))))
              end) with (states_of d (start_of start0 (th_id t))).
      change (match start_of start0 (th_id t) with Speculate => false | _ => true end) with (is_first (start_of start0 (th_id t))).
      assert (Est : exists z, start_of start0 (th_id t) = z) by eauto. destruct Est as [z Est]. rewrite !Est. 
      destruct z as [ss q cur| |]; cbn [states_of is_first];
        [|destruct (MAX_STATE <? zlen [1]); [cbn; eauto|]|destruct (MAX_STATE <? zlen (map _ _)); [cbn; eauto|]];
        (destruct (lex_all s) as [evs|]; cbn [bind initQueryStacks]; [|eauto]); cbn [th_phase th_id th_chunk]; rewrite ?Est; cbn [states_of is_first];
        (split; [reflexivity|]); (split; [reflexivity|]);
        (destruct (worker_loop _ _ _ _ _ _ evs _) as [w'|]; cbn [bind]; [|reflexivity]); destruct (last_unit _ w'); reflexivity.
    - cbn [worker_loop bind]. destruct (last_unit buf w) as [ul|]; cbn [bind]; [|eauto]. auto.
    - cbn [worker_loop]. destruct (worker_step _ _ _ _ _ _ ev evs w) as [w'|]; cbn [bind]; [|eauto]. auto.
  Qed.

  (** ** The invariant *)
  Record inv (chunks : list (option bytes)) (s : system) : Prop := mkInv {
    iv_chunks : map th_chunk (s_ti s) ++ s_todo s = chunks;
    iv_ids : map th_id (s_ti s) = seq 0 (List.length (s_ti s));
    iv_future : Forall (fun t => future t = tres (th_id t) (th_chunk t)) (s_ti s);
    iv_few : zlen (s_ti s) <= MAX_THREAD;
    iv_joined : (s_joined s <= List.length (s_ti s))%nat;
    iv_wait : s_todo s <> [] -> s_joined s = O;
    iv_done : Forall (fun t => exists r, th_phase t = Finished r) (firstn (s_joined s) (s_ti s));
    iv_result : forall m, s_result s = Some m -> executeParallelAutomata d ct pj start0 tl0 chunks = Ok m
  }.

  Lemma inv_start chunks : inv chunks (start_system chunks).
  Proof. constructor; cbn; auto; try constructor; try discriminate; unfold zlen, MAX_THREAD; cbn; try lia. Qed.

  Lemma nth_split_at {A} (l : list A) i x : nth_error l i = Some x -> l = firstn i l ++ x :: skipn (S i) l /\ List.length (firstn i l) = i.
  Proof.
    revert i. induction l as [|a l IH]; intros [|i] H; try discriminate; cbn in *.
    - injection H as ->. auto.
    - destruct (IH i H) as [E El]. split; [f_equal; exact E|f_equal; exact El].
  Qed.
  Lemma seq_split_map {A} (f : A -> nat) (l1 : list A) x l2 n : map f (l1 ++ x :: l2) = seq n (List.length (l1 ++ x :: l2)) -> f x = (n + List.length l1)%nat.
  Proof.
    revert n. induction l1 as [|a l1 IH]; intros n H; cbn in H; injection H as H1 H2; [cbn; lia|]. rewrite (IH (S n) H2). cbn. lia.
  Qed.

  (** Finished threads and the sequential run. *)
  Lemma all_done : forall ts i, map th_id ts = seq i (List.length ts) -> Forall (fun t => future t = tres (th_id t) (th_chunk t)) ts ->
    forall rs, mapM result_of ts = Ok rs -> all i (map th_chunk ts) = Ok rs.
  Proof.
    induction ts as [|t ts IH]; intros i Hi Hf rs H; cbn [mapM map all_threads] in *; [exact H|].
    cbn [List.length seq] in Hi. injection Hi as Hi Hi'. apply Forall_cons_iff in Hf as [Hf Hf'].
    destruct (result_of t) as [r|] eqn:Er; [|discriminate]. cbn [bind] in H. destruct (mapM result_of ts) as [rs'|] eqn:Em; [|discriminate]. cbn [bind] in H. injection H as <-.
    rewrite <- Hi, <- Hf. unfold future, result_of in *. destruct (th_phase t); try discriminate. injection Er as ->. cbn [bind]. rewrite Hi, (IH _ Hi' Hf' _ eq_refl). reflexivity.
  Qed.
  Lemma done_results ts : Forall (fun t => exists r, th_phase t = Finished r) ts -> exists rs, mapM result_of ts = Ok rs.
  Proof.
    induction 1 as [|t ts [r Hr] _ [rs IH]]; [exists []; reflexivity|]. exists (r :: rs). cbn [mapM]. unfold result_of at 1. rewrite Hr. cbn [bind]. rewrite IH. reflexivity.
  Qed.

  Lemma inv_step chunks a s s' : inv chunks s -> sstep a s = Some (Ok s') -> inv chunks s'.
  Proof.
    intros [H1 H2 H3 H4 H5 H6 H7 H8] H. destruct a as [|i]; cbn [step_by] in H.
    - (* main *)
      unfold main_step in H. destruct (s_result s) as [m|] eqn:Er; [discriminate|]. destruct (s_todo s) as [|c todo] eqn:Et.
      + destruct (nth_error (s_ti s) (s_joined s)) as [t|] eqn:En.
        * destruct (th_phase t) as [| |r] eqn:Ep; try discriminate. injection H as <-. destruct (nth_split_at _ _ _ En) as [Es El].
          constructor; cbn [s_todo s_ti s_joined s_result]; auto; try discriminate.
          -- assert ((s_joined s < List.length (s_ti s))%nat) by (apply nth_error_Some; congruence). lia.
          -- congruence.
          -- replace (firstn (S (s_joined s)) (s_ti s)) with (firstn (s_joined s) (s_ti s) ++ [t]).
             { apply Forall_app. split; [exact H7|]. constructor; [|constructor]. eauto. }
             assert (G : forall (l : list thread) n x, nth_error l n = Some x -> firstn n l ++ [x] = firstn (S n) l).
             { induction l as [|y l IH]; intros [|n] x Hn; try discriminate; cbn in *; [injection Hn as ->; reflexivity|f_equal; apply IH, Hn]. }
             apply G, En.
        * apply nth_error_None in En. assert (Ej : s_joined s = List.length (s_ti s)) by lia.
          injection H as H. destruct (mapM result_of (s_ti s)) as [rs|] eqn:Em; [|discriminate]. cbn [bind] in H.
          destruct (match rs with [] => UB UninitRead | r :: rs' => combine_all d (pj_name pj) (pj_main pj) r rs' end) as [m|] eqn:Ec; [|discriminate].
          cbn [bind] in H. injection H as <-. constructor; cbn [s_todo s_ti s_joined s_result]; auto.
          intros m' E. injection E as <-. unfold executeParallelAutomata. rewrite app_nil_r in H1. subst chunks.
          destruct (Z.ltb_spec MAX_THREAD (zlen (map th_chunk (s_ti s)))) as [Hl|_]; [unfold zlen in *; rewrite map_length in Hl; lia|].
          rewrite (all_done _ O H2 H3 rs Em). cbn [bind]. exact Ec.
      + injection H as H. destruct (Z.leb_spec MAX_THREAD (zlen (s_ti s))); [discriminate|]. injection H as <-.
        constructor; cbn [s_todo s_ti s_joined s_result]; try discriminate.
        * rewrite map_app, <- app_assoc. exact H1.
        * rewrite map_app, app_length, seq_app, H2. reflexivity.
        * apply Forall_app. split; [exact H3|]. constructor; [reflexivity|constructor].
        * unfold zlen in *. rewrite app_length. cbn. lia.
        * rewrite app_length. lia.
        * intros _. apply H6. discriminate.
        * rewrite (H6 ltac:(discriminate)). constructor.
    - (* thread *)
      destruct (nth_error (s_ti s) i) as [t|] eqn:En; [|discriminate]. destruct (tstep t) as [r|] eqn:Et; [|discriminate].
      pose proof (tstep_future t r Et) as Hr. destruct r as [t'|]; [|discriminate]. cbn [bind] in H.
      assert (HK : exists K, K = skipn (S i) (s_ti s)) by eauto. destruct HK as [K HK]. rewrite <- HK in H. injection H as <-. subst K.
      destruct Hr as (E1 & E2 & E3). destruct (nth_split_at _ _ _ En) as [Es El].
      assert (Em : forall (B : Type) (f : thread -> B), f t' = f t -> map f (firstn i (s_ti s) ++ t' :: skipn (S i) (s_ti s)) = map f (s_ti s)).
      { intros B f Hf. rewrite Es at 3. rewrite !map_app. cbn [map]. rewrite Hf. reflexivity. }
      assert (Ele : List.length (firstn i (s_ti s) ++ t' :: skipn (S i) (s_ti s)) = List.length (s_ti s)).
      { rewrite <- (map_length th_id), (Em _ th_id E1), map_length. reflexivity. }
      constructor; cbn [s_todo s_ti s_joined s_result]; auto.
      + rewrite (Em _ th_chunk E2). exact H1.
      + rewrite (Em _ th_id E1), Ele. exact H2.
      + rewrite Es in H3. apply Forall_app in H3 as [Ha Hb]. apply Forall_cons_iff in Hb as [Hb Hc]. apply Forall_app. split; [exact Ha|].
        constructor; [|exact Hc]. rewrite E1, E2, E3. exact Hb.
      + unfold zlen in *. rewrite Ele. exact H4.
      + rewrite Ele. exact H5.
      + (* a joined thread makes no step *)
        destruct (Nat.lt_ge_cases i (s_joined s)) as [Hlt|Hge].
        * exfalso. assert (Hin : In t (firstn (s_joined s) (s_ti s))).
          { apply nth_error_In with i. assert (G : forall (l : list thread) n j, (j < n)%nat -> nth_error (firstn n l) j = nth_error l j).
            { induction l as [|y l IH]; intros [|n] [|j] Hj; try lia; cbn; auto. apply IH. lia. }
            rewrite G by exact Hlt. exact En. }
          rewrite Forall_forall in H7. destruct (H7 t Hin) as [r Hr]. unfold thread_step in Et. rewrite Hr in Et. discriminate.
        * rewrite firstn_app, El. replace (firstn (s_joined s) (firstn i (s_ti s))) with (firstn (s_joined s) (s_ti s)).
          2:{ rewrite firstn_firstn. f_equal. lia. }
          replace (s_joined s - i)%nat with O by lia. cbn. rewrite app_nil_r. exact H7.
  Qed.

  Lemma inv_sched chunks : forall l s s', inv chunks s -> sched l s = Some (Ok s') -> inv chunks s'.
  Proof.
    induction l as [|a l IH]; intros s s' Hi H; cbn [schedule] in H.
    - injection H as <-. exact Hi.
    - destruct (sstep a s) as [[s1|]|] eqn:E; try discriminate. eapply IH; [|exact H]. eapply inv_step; eauto.
  Qed.

  (** ** Undefined behaviour in some interleaving is in all of them *)
  Lemma future_ub : forall ts i, map th_id ts = seq i (List.length ts) -> Forall (fun t => future t = tres (th_id t) (th_chunk t)) ts ->
    forall t e rest, In t ts -> future t = UB e -> exists e', all i (map th_chunk ts ++ rest) = UB e'.
  Proof.
    induction ts as [|t0 ts IH]; intros i Hi Hf t e rest Hin Ht; [destruct Hin|]. cbn [map app all_threads List.length seq] in *.
    injection Hi as Hi Hi'. apply Forall_cons_iff in Hf as [Hf Hf']. rewrite <- Hi, <- Hf. destruct Hin as [->|Hin].
    - rewrite Ht. cbn. eauto.
    - destruct (future t0) as [r|]; cbn [bind]; [|eauto]. rewrite Hi. destruct (IH _ Hi' Hf' t e rest Hin Ht) as [e' ->]. cbn. eauto.
  Qed.

  Lemma ub_step chunks a s e : inv chunks s -> sstep a s = Some (UB e) -> exists e', executeParallelAutomata d ct pj start0 tl0 chunks = UB e'.
  Proof.
    intros [H1 H2 H3 H4 H5 H6 H7 H8] H. unfold executeParallelAutomata. destruct (Z.ltb_spec MAX_THREAD (zlen chunks)) as [|Hl]; [eauto|].
    destruct a as [|i]; cbn [step_by] in H.
    - unfold main_step in H. destruct (s_result s) as [m|] eqn:Er; [discriminate|]. destruct (s_todo s) as [|c todo] eqn:Et.
      + rewrite app_nil_r in H1. subst chunks. destruct (nth_error (s_ti s) (s_joined s)) as [t|] eqn:En.
        * destruct (th_phase t); discriminate.
        * apply nth_error_None in En. assert (Ej : s_joined s = List.length (s_ti s)) by lia. rewrite Ej, firstn_all in H7.
          destruct (done_results _ H7) as [rs Em]. rewrite (all_done _ O H2 H3 rs Em). cbn [bind]. rewrite Em in H. cbn [bind] in H.
          injection H as H. destruct (match rs with [] => UB UninitRead | r :: rs' => combine_all d (pj_name pj) (pj_main pj) r rs' end) as [m|]; [discriminate|]. cbn. eauto.
      + injection H as H. destruct (Z.leb_spec MAX_THREAD (zlen (s_ti s))); [|discriminate]. exfalso. subst chunks. unfold zlen in *. rewrite app_length, map_length in Hl. cbn in Hl. lia.
    - destruct (nth_error (s_ti s) i) as [t|] eqn:En; [|discriminate]. destruct (tstep t) as [r|] eqn:Et; [|discriminate].
      pose proof (tstep_future t r Et) as Hr. destruct r as [t'|e0]; [discriminate|]. destruct Hr as [e1 Hr].
      subst chunks. destruct (future_ub _ O H2 H3 t e1 (s_todo s)) as [e' ->]; [eapply nth_error_In; eauto|exact Hr|]. cbn. eauto.
  Qed.
  Lemma ub_sched chunks : forall l s e, inv chunks s -> sched l s = Some (UB e) -> exists e', executeParallelAutomata d ct pj start0 tl0 chunks = UB e'.
  Proof.
    induction l as [|a l IH]; intros s e Hi H; cbn [schedule] in H; [discriminate|].
    destruct (sstep a s) as [[s1|e1]|] eqn:E; try discriminate.
    - eapply IH; [|exact H]. eapply inv_step; eauto.
    - eapply ub_step; eauto.
  Qed.

  (** ** Progress *)
  Definition can_move (s : system) : Prop := exists a r, sstep a s = Some r.
  Lemma progress chunks s : inv chunks s -> s_result s = None -> can_move s.
  Proof.
    intros [H1 H2 H3 H4 H5 H6 H7 H8] Hr. unfold can_move. destruct (s_todo s) as [|c todo] eqn:Et.
    - destruct (nth_error (s_ti s) (s_joined s)) as [t|] eqn:En.
      + destruct (th_phase t) as [|buf evs w|r] eqn:Ep.
        * exists (Thread (s_joined s)). cbn [step_by]. rewrite En. unfold thread_step. rewrite Ep. eauto.
        * exists (Thread (s_joined s)). cbn [step_by]. rewrite En. unfold thread_step. rewrite Ep. destruct evs; eauto.
        * exists Main. cbn [step_by]. unfold main_step. rewrite Hr, Et, En, Ep. eauto.
      + exists Main. cbn [step_by]. unfold main_step. rewrite Hr, Et, En. eauto.
    - exists Main. cbn [step_by]. unfold main_step. rewrite Hr, Et. eauto.
  Qed.

  (** Steps still to be made. *)
  Definition tokens (c : option bytes) : nat := match c with Some s => match lex_all s with Ok evs => List.length evs | UB _ => O end | None => O end.
  Definition todo_thread (t : thread) : nat :=
    match th_phase t with Created => (2 + tokens (th_chunk t))%nat | Looping _ evs _ => S (List.length evs) | Finished _ => O end.
  Definition left_over (s : system) : nat :=
    (list_sum (map (fun c => 4 + tokens c) (s_todo s)) + list_sum (map todo_thread (s_ti s)) + (List.length (s_ti s) - s_joined s)
     + match s_result s with None => 1 | Some _ => 0 end)%nat.

  Lemma list_sum_app l1 l2 : list_sum (l1 ++ l2) = (list_sum l1 + list_sum l2)%nat.
  Proof. unfold list_sum. induction l1 as [|a l1 IH]; cbn; [reflexivity|]. cbn in IH. lia. Qed.

  Lemma left_less chunks a s s' : inv chunks s -> sstep a s = Some (Ok s') -> (left_over s' < left_over s)%nat.
  Proof.
    intros [H1 H2 H3 H4 H5 H6 H7 H8] H. unfold left_over. destruct a as [|i]; cbn [step_by] in H.
    - unfold main_step in H. destruct (s_result s) as [m|] eqn:Er; [discriminate|]. destruct (s_todo s) as [|c todo] eqn:Et.
      + destruct (nth_error (s_ti s) (s_joined s)) as [t|] eqn:En.
        * destruct (th_phase t) as [| |r] eqn:Ep; try discriminate. injection H as <-. cbn [s_todo s_ti s_joined s_result].
          assert ((s_joined s < List.length (s_ti s))%nat) by (apply nth_error_Some; congruence). lia.
        * injection H as H. destruct (mapM result_of (s_ti s)) as [rs|]; [|discriminate]. cbn [bind] in H.
          destruct (match rs with [] => UB UninitRead | r :: rs' => combine_all d (pj_name pj) (pj_main pj) r rs' end) as [m|]; [|discriminate].
          cbn [bind] in H. injection H as <-. cbn [s_todo s_ti s_joined s_result]. lia.
      + injection H as H. destruct (Z.leb_spec MAX_THREAD (zlen (s_ti s))); [discriminate|]. injection H as <-. cbn [s_todo s_ti s_joined s_result].
        rewrite (H6 ltac:(discriminate)). rewrite map_app, list_sum_app, app_length. cbn [map List.length].
        assert (E1 : forall a l, list_sum (a :: l) = (a + list_sum l)%nat) by reflexivity. rewrite !E1. change (list_sum []) with O.
        change (todo_thread (mkTh (List.length (s_ti s)) c Created)) with (2 + tokens c)%nat. lia.
    - destruct (nth_error (s_ti s) i) as [t|] eqn:En; [|discriminate]. destruct (tstep t) as [r|] eqn:Et; [|discriminate].
      destruct r as [t'|]; [|discriminate]. cbn [bind] in H.
      assert (HK : exists K, K = skipn (S i) (s_ti s)) by eauto. destruct HK as [K HK]. rewrite <- HK in H. injection H as <-. subst K. cbn [s_todo s_ti s_joined s_result].
      destruct (nth_split_at _ _ _ En) as [Es El].
      assert (Hless : (todo_thread t' < todo_thread t)%nat).
      { unfold thread_step, todo_thread in *. destruct (th_phase t) as [|buf [|ev evs] w|x]; [| | |discriminate]; injection Et as Et.
        - unfold tokens. destruct (th_chunk t) as [c|]; [|discriminate]. destruct (match states_of _ _ with Some l => _ | None => _ end); [discriminate|].
          destruct (match start_of _ _ with Continue _ _ _ => _ | _ => _ end) as [ss [q cur]].
          destruct (lex_all c) as [evs|]; [|discriminate]. cbn [bind] in Et. injection Et as <-. cbn [th_phase]. lia.
        - destruct (last_unit buf w); [|discriminate]. cbn [bind] in Et. injection Et as <-. cbn. lia.
        - destruct (worker_step _ _ _ _ _ _ _ _ _); [|discriminate]. cbn [bind] in Et. injection Et as <-. cbn. lia. }
      assert (Ele : List.length (firstn i (s_ti s) ++ t' :: skipn (S i) (s_ti s)) = List.length (s_ti s)).
      { rewrite Es at 3. rewrite !app_length. reflexivity. }
      rewrite Ele.
      assert (Et1 : list_sum (map todo_thread (s_ti s)) = (list_sum (map todo_thread (firstn i (s_ti s))) + (todo_thread t + list_sum (map todo_thread (skipn (S i) (s_ti s)))))%nat).
      { rewrite Es at 1. rewrite map_app, list_sum_app. reflexivity. }
      assert (Et2 : list_sum (map todo_thread (firstn i (s_ti s) ++ t' :: skipn (S i) (s_ti s))) = (list_sum (map todo_thread (firstn i (s_ti s))) + (todo_thread t' + list_sum (map todo_thread (skipn (S i) (s_ti s)))))%nat).
      { rewrite map_app, list_sum_app. reflexivity. }
      rewrite Et1, Et2. lia.
  Qed.

  Lemma sched_app : forall l1 l2 s s1, sched l1 s = Some (Ok s1) -> sched (l1 ++ l2) s = sched l2 s1.
  Proof.
    induction l1 as [|a l1 IH]; intros l2 s s1 H; cbn [schedule app] in *; [injection H as <-; reflexivity|].
    destruct (sstep a s) as [[s2|]|]; try discriminate. apply IH, H.
  Qed.

  Lemma complete chunks m : executeParallelAutomata d ct pj start0 tl0 chunks = Ok m -> forall n s, (left_over s < n)%nat -> inv chunks s ->
    exists l s', sched l s = Some (Ok s') /\ s_result s' = Some m.
  Proof.
    intros Hm. induction n as [|n IH]; intros s Hn Hi; [lia|].
    destruct (s_result s) as [m'|] eqn:Er.
    - exists [], s. split; [reflexivity|]. rewrite (iv_result _ _ Hi m' Er) in Hm. injection Hm as <-. exact Er.
    - destruct (progress _ s Hi Er) as (a & [s1|e] & Ha).
      + destruct (IH s1) as (l & s' & Hl & Hr); [pose proof (left_less _ _ _ _ Hi Ha); lia|eapply inv_step; eauto|].
        exists (a :: l), s'. cbn [schedule]. rewrite Ha. auto.
      + destruct (ub_step _ _ _ _ Hi Ha) as [e' E]. congruence.
  Qed.

  (** ** The theorems *)
  Theorem any_schedule chunks l s m : sched l (start_system chunks) = Some (Ok s) -> s_result s = Some m ->
    executeParallelAutomata d ct pj start0 tl0 chunks = Ok m.
  Proof. intros H Hr. apply (iv_result _ _ (inv_sched chunks l _ _ (inv_start chunks) H)), Hr. Qed.

  Theorem any_schedule_ub chunks l e : sched l (start_system chunks) = Some (UB e) ->
    exists e', executeParallelAutomata d ct pj start0 tl0 chunks = UB e'.
  Proof. apply ub_sched, inv_start. Qed.

  Theorem schedule_completes chunks l s m : executeParallelAutomata d ct pj start0 tl0 chunks = Ok m -> sched l (start_system chunks) = Some (Ok s) ->
    exists l' s', sched (l ++ l') (start_system chunks) = Some (Ok s') /\ s_result s' = Some m.
  Proof.
    intros Hm H. destruct (complete chunks m Hm (S (left_over s)) s) as (l' & s' & Hl & Hr); [lia|eapply inv_sched; eauto using inv_start|].
    exists l', s'. split; [|exact Hr]. rewrite (sched_app l l' _ _ H). exact Hl.
  Qed.

  Lemma sched_short chunks : forall l s s', inv chunks s -> sched l s = Some (Ok s') -> (List.length l + left_over s' <= left_over s)%nat.
  Proof.
    induction l as [|a l IH]; intros s s' Hi H; cbn [schedule] in H.
    - injection H as <-. cbn. lia.
    - destruct (sstep a s) as [[s1|]|] eqn:E; try discriminate. pose proof (left_less _ _ _ _ Hi E). specialize (IH s1 s' (inv_step _ _ _ _ Hi E) H). cbn [List.length]. lia.
  Qed.
  Theorem schedule_ends chunks : exists n, forall l s, sched l (start_system chunks) = Some (Ok s) -> (List.length l <= n)%nat.
  Proof. exists (left_over (start_system chunks)). intros l s H. pose proof (sched_short chunks l _ _ (inv_start chunks) H). lia. Qed.
  Theorem schedule_stuck chunks l s : sched l (start_system chunks) = Some (Ok s) -> (forall a, sstep a s = None) -> s_result s <> None.
  Proof.
    intros H Hn Hr. destruct (progress chunks s) as (a & r & Ha); [eapply inv_sched; eauto using inv_start|exact Hr|]. rewrite Hn in Ha. discriminate.
  Qed.
End P.

(** * Whole runs *)
Section Runs.
  Variable N : numops.
  Variable p : processor.
  Variable ct : option ctable.
  Variable pj : pjunk.

  Definition agrees {A} (a : option (res A)) (b : res A) : Prop :=
    match a with None => True | Some (Ok x) => b = Ok x | Some (UB _) => exists e, b = UB e end.

  Lemma execute_agrees st tl l chunks : agrees (scheduled_execute p ct pj st tl l chunks) (executeParallelAutomata (p_dfa p) ct pj st tl chunks).
  Proof.
    unfold agrees, scheduled_execute. destruct (schedule _ _ _ _ _ l _) as [[s|e]|] eqn:E; [|eapply any_schedule_ub; exact E|exact I].
    destruct (s_result s) as [m|] eqn:Er; [|exact I]. eapply any_schedule; eauto.
  Qed.
  Lemma partial_agrees l s n ci : agrees (scheduled_partial N p ct pj l s n ci) (parallelPartialRun N p ct pj s n ci).
  Proof.
    unfold scheduled_partial, parallelPartialRun. destruct (partitionInputStream s n) as [chunks|e]; [|cbn; eauto]. cbn [bind].
    pose proof (execute_agrees (if pc_context ci then Continue (m_ss (pc_main ci)) (m_qs (pc_main ci)) (m_cur (pc_main ci)) else First) (m_tl (pc_main ci)) l chunks) as H.
    unfold agrees in H. destruct (scheduled_execute _ _ _ _ _ _ _) as [[m|e]|]; [|destruct H as [e' ->]; cbn; eauto|exact I].
    rewrite H. cbn [bind]. unfold agrees. 
    destruct (tl <- mapM plain_tuple (m_tl m) ;; _) as [[o c]|e]; [reflexivity|eauto].
  Qed.
  Lemma loop_agrees M X file n : forall fuel scheds start out ci,
    agrees (scheduled_loop N p ct pj scheds M X file n fuel start out ci) (parallel_loop N p ct pj M X file n fuel start out ci).
  Proof.
    induction fuel as [|fuel IH]; intros scheds start out ci; cbn [scheduled_loop parallel_loop]; [cbn; eauto|].
    destruct (loadBounded M X file start) as [[[s next]|]|e]; cbn [bind]; [|reflexivity|cbn; eauto].
    pose proof (partial_agrees (scheds O) s n ci) as H. unfold agrees in H. destruct (scheduled_partial _ _ _ _ _ _ _ _) as [[[o c]|e]|]; [|destruct H as [e' ->]; cbn; eauto|exact I].
    rewrite H. cbn [bind]. apply IH.
  Qed.
  Theorem run_agrees scheds M X file n :
    match scheduled_run N p ct pj scheds M X file n with
    | None => True
    | Some (Ok o) => parallel_run N p ct pj M X file n = Ok o
    | Some (UB _) => exists e, parallel_run N p ct pj M X file n = UB e
    end.
  Proof.
    unfold scheduled_run, parallel_run. pose proof (loop_agrees M X file n (S (List.length file)) scheds 0 None init_pcontext) as H. unfold agrees in H.
    destruct (scheduled_loop _ _ _ _ _ _ _ _ _ _ _ _ _) as [[[o c]|e]|]; [|destruct H as [e' ->]; cbn; eauto|exact I].
    rewrite H. cbn [bind]. destruct (pc_context c); eauto.
  Qed.

  (** Some schedules lead to the end. *)
  Lemma execute_some st tl chunks m : executeParallelAutomata (p_dfa p) ct pj st tl chunks = Ok m -> exists l, scheduled_execute p ct pj st tl l chunks = Some (Ok m).
  Proof.
    intros H. destruct (schedule_completes (p_dfa p) ct pj st tl chunks [] (start_system chunks) m H eq_refl) as (l & s & Hl & Hr).
    exists l. unfold scheduled_execute. cbn [app] in Hl. rewrite Hl, Hr. reflexivity.
  Qed.
  Lemma partial_some s n ci r : parallelPartialRun N p ct pj s n ci = Ok r -> exists l, scheduled_partial N p ct pj l s n ci = Some (Ok r).
  Proof.
    unfold scheduled_partial, parallelPartialRun. destruct (partitionInputStream s n) as [chunks|e]; [|discriminate]. cbn [bind].
    destruct (executeParallelAutomata _ _ _ _ _ _) as [m|e] eqn:E; [|discriminate]. cbn [bind]. intros H. destruct (execute_some _ _ _ _ E) as [l Hl]. exists l. rewrite Hl, H. reflexivity.
  Qed.
  Lemma loop_some M X file n : forall fuel start out ci r, parallel_loop N p ct pj M X file n fuel start out ci = Ok r ->
    exists scheds, scheduled_loop N p ct pj scheds M X file n fuel start out ci = Some (Ok r).
  Proof.
    induction fuel as [|fuel IH]; intros start out ci r H; cbn [scheduled_loop parallel_loop] in *; [discriminate|].
    destruct (loadBounded M X file start) as [[[s next]|]|e]; cbn [bind] in *; [|injection H as <-; exists (fun _ => []); reflexivity|discriminate].
    destruct (parallelPartialRun N p ct pj s n ci) as [[o c]|e] eqn:E; [|discriminate]. cbn [bind] in H. destruct (partial_some _ _ _ _ E) as [l Hl].
    destruct (IH _ _ _ _ H) as [scheds Hs]. exists (fun k => match k with O => l | S k' => scheds k' end). rewrite Hl. exact Hs.
  Qed.
  Theorem run_some M X file n o : parallel_run N p ct pj M X file n = Ok o -> exists scheds, scheduled_run N p ct pj scheds M X file n = Some (Ok o).
  Proof.
    unfold scheduled_run, parallel_run. destruct (parallel_loop _ _ _ _ _ _ _ _ _ _ _ _) as [[o' c]|e] eqn:E; [|discriminate]. cbn [bind]. intros H.
    destruct (loop_some _ _ _ _ _ _ _ _ _ E) as [scheds Hs]. exists scheds. rewrite Hs. cbn [bind]. rewrite H. reflexivity.
  Qed.
End Runs.
