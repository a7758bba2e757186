(** Members that a query does not name. *)
From Verif Require Import Base Util Spec QueryClass FilterSpec Claims PipeSpec KeepSpec Lexer Dfa Stream Num Builder Eval Filter Loader Run EndToEnd ClaimProof Compose Pipe.
Open Scope Z_scope.

Definition kept (K : list bytes) (l : label) : bool := match l with LKey k => listed K k | LIdx _ => true end.
Definition cut (K : list bytes) (c : label * json) : label * json := (fst c, pared K (snd c)).

Lemma listed_in K k : listed K k = true <-> In k K.
Proof. unfold listed. rewrite existsb_exists. split; [intros (x & H & E); apply beq_true in E; subst; exact H|intros H; exists k; split; [exact H|apply beq_refl]]. Qed.
Lemma pared_children K v : children (pared K v) = map (cut K) (filter (fun c => kept K (fst c)) (children v)).
Proof.
  destruct v as [s|s|w ms|w es]; try reflexivity; cbn [pared children].
  - induction ms as [|m k v ms IH]; [reflexivity|]. cbn [pared_ms members_of filter fst kept]. destruct (listed K k); cbn [members_of map]; rewrite IH; reflexivity.
  - generalize O as i. induction es as [|wb v wa es IH]; intros i; [reflexivity|]. cbn [pared_es elements_of filter fst kept map]. rewrite IH. reflexivity.
Qed.
Lemma pared_object K v : is_object (pared K v) = is_object v.
Proof. destruct v; reflexivity. Qed.
Lemma pared_container K v : is_container (pared K v) = is_container v.
Proof. destruct v; reflexivity. Qed.
Lemma pared_plain K u v : pared K u = pared K v -> is_container u = false -> text u = text v.
Proof. destruct u, v; try discriminate; cbn [pared]; intros E _; injection E as ->; reflexivity. Qed.

(** * Fields of filters *)
Lemma values_pared K :
  (forall v f, (forall k, In k f -> In k K) -> values_at f (pared K v) = map (pared K) (values_at f v)) /\
  (forall ms k f, In k K -> (forall k, In k f -> In k K) -> values_ms k f (pared_ms K ms) = map (pared K) (values_ms k f ms)) /\
  (forall es : elements, True).
Proof.
  apply json_all_ind; auto.
  - intros s [|k f] H; reflexivity.
  - intros s [|k f] H; reflexivity.
  - intros w ms IH [|k f] H; [reflexivity|]. cbn [pared values_at]. apply IH; [apply H; left; reflexivity|intros; apply H; right; assumption].
  - intros w es _ [|k f] H; reflexivity.
  - intros p k v IHv ms IH k0 f Hk Hf. cbn [pared_ms values_ms]. rewrite map_app, <- (IH k0 f Hk Hf). destruct (listed K k) eqn:E.
    + cbn [values_ms]. f_equal. destruct (beq k0 k); [apply IHv, Hf|reflexivity].
    + destruct (beq k0 k) eqn:E2; [|reflexivity]. apply beq_true in E2. subst k0. apply listed_in in Hk. congruence.
Qed.
Lemma last_map {A C} (f : A -> C) l d : last (map f l) (f d) = f (last l d).
Proof. induction l as [|a [|b l] IH]; try reflexivity. exact IH. Qed.
Lemma field_pared K f v : (forall k, In k f -> In k K) -> field f (pared K v) = option_map (pared K) (field f v).
Proof.
  intros H. unfold field. rewrite (proj1 (values_pared K) v f H), map_map. rewrite <- (last_map (option_map (pared K)) _ None), map_map. reflexivity.
Qed.
Section Num.
  Variable N : numops.
  Lemma json_val_pared K o : json_val N (option_map (pared K) o) = json_val N o.
  Proof. destruct o as [[]|]; reflexivity. Qed.
  Lemma meaning_pared K e v : (forall k, In k (step_names (SFilter e)) -> In k K) ->
    meaning N (fun f => field f (pared K v)) e = meaning N (fun f => field f v) e.
  Proof.
    cbn [step_names]. induction e as [p| | |e IH|op e1 IH1 e2 IH2]; intros H; cbn [meaning]; try reflexivity.
    - rewrite field_pared by (intros k Hk; apply H; cbn; rewrite app_nil_r; exact Hk). apply json_val_pared.
    - rewrite IH by exact H. reflexivity.
    - cbn [fields_in] in H. rewrite concat_app in H. rewrite IH1, IH2 by (intros k Hk; apply H, in_or_app; auto). reflexivity.
  Qed.
  Lemma holds_pared K e v : (forall k, In k (step_names (SFilter e)) -> In k K) -> holds N e (pared K v) = holds N e v.
  Proof. intros H. unfold holds. rewrite meaning_pared by exact H. reflexivity. Qed.

  (** * Answers *)
  Lemma takes_pared K s c : by_name s = true -> (forall k, In k (step_names s) -> In k K) ->
    takes (holds N) s c = kept K (fst c) && takes (holds N) s (cut K c).
  Proof.
    intros Hs Hk. destruct c as [l u]. destruct s as [k| | | | |lo hi|n|e]; try discriminate; destruct l as [k'|i]; cbn [takes fst snd cut kept]; rewrite ?andb_false_r; try reflexivity.
    - destruct (beq k k') eqn:E; [|rewrite andb_false_r; reflexivity]. apply beq_true in E. subst k'.
      assert (Hl : listed K k = true) by (apply listed_in, Hk; left; reflexivity). rewrite Hl. reflexivity.
    - rewrite pared_object, holds_pared by exact Hk. reflexivity.
  Qed.
  Theorem answer_pared K : forall q v, forallb by_name q = true -> (forall k, In k (query_names q) -> In k K) ->
    answer (holds N) q (pared K v) = map (pared K) (answer (holds N) q v).
  Proof.
    induction q as [|s q IH]; intros v H Hk; [rewrite !answer_nil; reflexivity|].
    cbn [forallb] in H. apply andb_true_iff in H. destruct H as [Hs H]. unfold query_names in Hk. cbn [flat_map] in Hk.
    assert (Hd : down s = true) by (destruct s; try discriminate; reflexivity).
    rewrite !answer_step by exact Hd. rewrite pared_children.
    assert (Hk1 : forall k, In k (step_names s) -> In k K) by (intros; apply Hk, in_or_app; auto).
    assert (Hk2 : forall k, In k (query_names q) -> In k K) by (intros; apply Hk, in_or_app; auto).
    rewrite map_flat_map. induction (children v) as [|c l IHl]; [reflexivity|].
    cbn [filter]. rewrite (takes_pared K s c Hs Hk1). destruct (kept K (fst c)); cbn [andb map filter]; [|exact IHl].
    destruct (takes (holds N) s (cut K c)); cbn [flat_map]; [|exact IHl]. rewrite IHl. f_equal. cbn [cut snd]. apply IH; assumption.
  Qed.

  (** * Conditions that make sense *)
  Lemma lsel_kept K : forall q w, forallb by_name q = true -> (forall k, In k (query_names q) -> In k K) -> lsel q w = true -> forallb (kept K) w = true.
  Proof.
    induction q as [|s q IH]; intros [|l w] H Hk Hl; try discriminate; [reflexivity|]. cbn [forallb] in H. apply andb_true_iff in H. destruct H as [Hs H].
    unfold query_names in Hk. cbn [flat_map] in Hk. cbn [forallb].
    assert (Hw : lsel q w = true /\ kept K l = true).
    { destruct s as [k| | | | |lo hi|n|e]; try discriminate; cbn [lsel] in Hl; apply andb_true_iff in Hl; destruct Hl as [H1 H2]; (split; [exact H2|]); destruct l as [k'|i]; try discriminate; try reflexivity.
      apply beq_true in H1. subst k'. apply listed_in, Hk. left. reflexivity. }
    destruct Hw as [H1 H2]. rewrite H2. apply IH; [exact H| |exact H1]. intros k Hi. apply Hk, in_or_app. right. exact Hi.
  Qed.
  Lemma node_to_pared K : forall p u v, In (p, u) (nodes [] v) -> forallb (kept K) (labels p) = true -> In (map (cut K) p, pared K u) (nodes [] (pared K v)).
  Proof.
    induction p as [|c0 p IH]; intros u v H Hk; destruct (node_cases _ _ _ H) as [[E ->]|(c & p' & E & Hc & H1)]; try discriminate E.
    - rewrite nodes_children. apply in_or_app. right. left. reflexivity.
    - injection E as <- <-. cbn [labels map forallb] in Hk. apply andb_true_iff in Hk. destruct Hk as [K1 K2]. rewrite nodes_children. apply in_or_app. left. apply in_flat_map. exists (cut K c0). split.
      + rewrite pared_children. apply in_map. apply filter_In. auto.
      + apply in_map_iff. exists (map (cut K) p, pared K u). split; [reflexivity|]. exact (IH u (snd c0) H1 K2).
  Qed.
  Lemma node_of_pared K : forall p u v, In (p, u) (nodes [] (pared K v)) -> exists p0 u0, In (p0, u0) (nodes [] v) /\ labels p0 = labels p /\ pared K u0 = u.
  Proof.
    induction p as [|c0 p IH]; intros u v H; destruct (node_cases _ _ _ H) as [[E ->]|(c & p' & E & Hc & H1)]; try discriminate E.
    - exists [], v. split; [|auto]. rewrite nodes_children. apply in_or_app. right. left. reflexivity.
    - injection E as <- <-. rewrite pared_children in Hc. apply in_map_iff in Hc. destruct Hc as (c & <- & Hc). apply filter_In in Hc. destruct Hc as [Hc _]. cbn [cut snd] in H1.
      destruct (IH u (snd c) H1) as (p0 & u0 & G1 & G2 & G3). exists (c :: p0), u0. split; [|split; [|exact G3]].
      + rewrite nodes_children. apply in_or_app. left. apply in_flat_map. exists c. split; [exact Hc|]. apply in_map_iff. exists (p0, u0). auto.
      + cbn [labels map fst cut]. unfold labels in G2. rewrite G2. reflexivity.
  Qed.
  Lemma firstn_in {A} n (l : list A) x : In x (firstn n l) -> In x l.
  Proof. intros H. rewrite <- (firstn_skipn n l). apply in_or_app. auto. Qed.
  Lemma meaningful_pared q v1 v2 : forallb by_name q = true -> same_for q v1 v2 -> filters_meaningful N q v1 -> filters_meaningful N q v2.
  Proof.
    intros Hq E Hm j e p u Hj Hn Hl Ho. unfold same_for in E. set (K := query_names q) in *.
    assert (Hk : forallb (kept K) (labels p) = true).
    { apply (lsel_kept K (firstn (S j) q)); [| |exact Hl].
      - apply forallb_forall. intros s Hs. apply firstn_in in Hs. rewrite forallb_forall in Hq. auto.
      - intros k Hi. unfold K, query_names in *. apply in_flat_map in Hi. destruct Hi as (s & Hs & Hi). apply in_flat_map. exists s. split; [eapply firstn_in; exact Hs|exact Hi]. }
    pose proof (node_to_pared K p u v2 Hn Hk) as G. rewrite <- E in G. destruct (node_of_pared K _ _ _ G) as (p0 & u0 & G1 & G2 & G3).
    assert (Hl0 : labels p0 = labels p). { rewrite G2. unfold labels. rewrite map_map. apply map_ext. reflexivity. }
    assert (He : forall k, In k (step_names (SFilter e)) -> In k K). { intros k Hi. unfold K, query_names. apply in_flat_map. exists (SFilter e). split; [eapply nth_error_In; exact Hj|exact Hi]. }
    specialize (Hm j e p0 u0 Hj G1). rewrite Hl0 in Hm. unfold meaningful in *. rewrite <- (meaning_pared K e u He), <- G3, (meaning_pared K e u0 He). apply Hm; [exact Hl|].
    rewrite <- (pared_object K), G3, pared_object. exact Ho.
  Qed.
End Num.

(** * Runs *)
Lemma same_texts q : forall l1 l2, Forall (fun u => wf u = true) l1 -> Forall (fun u => wf u = true) l2 ->
  map (pared (query_names q)) l1 = map (pared (query_names q)) l2 -> Forall2 (text_same_for q) (map text l1) (map text l2).
Proof.
  induction l1 as [|u l1 IH]; intros [|v l2] W1 W2 E; try discriminate; constructor; injection E as E1 E2; apply Forall_cons_iff in W1, W2; destruct W1 as [W1 X1], W2 as [W2 X2]; [|auto].
  exists u, v. repeat split; auto. intros H. eapply pared_plain; eauto.
Qed.
Lemma answer_wf h q v : wf v = true -> Forall (fun u => wf u = true) (answer h q v).
Proof.
  intros H. apply Forall_forall. intros u Hu. unfold answer in Hu. apply in_map_iff in Hu. destruct Hu as ([p u'] & <- & Hu). apply filter_In in Hu. destruct Hu as [Hu _].
  destruct (node_below _ _ _ Hu) as [(_ & _ & W & _) _]. exact (W H).
Qed.
Theorem unnamed_members N strict q j d1 d2 : forallb by_name q = true -> supported q = true -> (strict = true -> single_names q) -> predicates_fit strict q ->
  good_doc d1 -> good_doc d2 -> limits q (d_val d1) -> limits q (d_val d2) -> filters_meaningful N q (d_val d1) -> j_major_null j = true ->
  same_for q (d_val d1) (d_val d2) ->
  exists p out1 out2, createPathProcessor strict q = Ok p /\ serialRun N j p (doc_text d1) = Ok (Some out1) /\
    serialRun N j p (doc_text d2) = Ok (Some out2) /\ Forall2 (text_same_for q) out1 out2.
Proof.
  intros Hq Hs Hn Hf G1 G2 L1 L2 Hm Hj E.
  destruct (serial_answer N strict q j d1 Hs Hn Hf G1 L1 Hm Hj) as (p & E1 & R1).
  destruct (serial_answer N strict q j d2 Hs Hn Hf G2 L2 (meaningful_pared N q _ _ Hq E Hm) Hj) as (p2 & E2 & R2).
  rewrite E1 in E2. injection E2 as <-. do 3 eexists. split; [exact E1|]. split; [exact R1|]. split; [exact R2|].
  apply same_texts; [apply answer_wf, wf_doc_val, G1|apply answer_wf, wf_doc_val, G2|]. rewrite <- !answer_pared by auto. unfold same_for in E. rewrite E. reflexivity.
Qed.

Lemma opens_of u : is_container u = true -> opens (text u) = true.
Proof. destruct u; try discriminate; reflexivity. Qed.
Lemma plain_texts q l1 l2 : Forall2 (text_same_for q) l1 l2 -> Forall (fun t => opens t = false) l1 -> l1 = l2.
Proof.
  induction 1 as [|t t' l1 l2 (u & v & W1 & W2 & -> & -> & E & H) _ IH]; intros F; [reflexivity|]. apply Forall_cons_iff in F. destruct F as [F1 F2]. f_equal; [|auto].
  apply H. destruct (is_container u) eqn:C; [|reflexivity]. rewrite opens_of in F1 by exact C. discriminate.
Qed.
