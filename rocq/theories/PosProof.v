(** Facts about positions and layout. *)
From Coq Require Import Sorting.Sorted.
From Verif Require Import Base Spec QueryClass Num FilterSpec PosSpec.
Open Scope Z_scope.

(** * Subsequences *)
Lemma subseq_filter {A} (f : A -> bool) l : subseq (filter f l) l.
Proof. induction l as [|x l IH]; cbn; [constructor|]. destruct (f x); constructor; exact IH. Qed.

Lemma subseq_in {A} (l m : list A) : subseq l m -> incl l m.
Proof.
  induction 1 as [|x l m _ IH|x l m _ IH]; intros y Hy; [exact Hy|right; apply IH, Hy|].
  destruct Hy as [<-|Hy]; [left; reflexivity|right; apply IH, Hy].
Qed.

Lemma subseq_sorted {A} (R : A -> A -> Prop) l m : subseq l m -> StronglySorted R m -> StronglySorted R l.
Proof.
  induction 1 as [|x l m H IH|x l m H IH]; intros Hs; [exact Hs|inversion Hs; auto|].
  inversion Hs as [|? ? H1 H2]; subst. constructor; [apply IH, H1|]. rewrite Forall_forall in *.
  intros y Hy. apply H2. eapply subseq_in; eauto.
Qed.

(** A subsequence of an image comes from a subsequence. *)
Lemma filter_pair {A C} (f : A -> bool) : forall (l : list A) (m : list C), List.length l = List.length m ->
  exists l', map fst l' = filter f l /\ subseq l' (combine l m).
Proof.
  induction l as [|a l IH]; intros [|c m] H; try discriminate.
  - exists []. split; [reflexivity|constructor].
  - destruct (IH m) as (l' & H1 & H2); [cbn in H; lia|]. cbn [filter combine]. destruct (f a).
    + exists ((a, c) :: l'). split; [cbn; congruence|constructor; exact H2].
    + exists l'. split; [exact H1|constructor; exact H2].
Qed.

Lemma subseq_map {A C} (g : A -> C) l m : subseq l m -> subseq (map g l) (map g m).
Proof. induction 1; cbn; constructor; assumption. Qed.

(** * Positions *)
Lemma spans_nodes : (forall v o p, map snd (spans o v) = map snd (nodes p v)) /\
  (forall ms o p, map snd (spans_ms o ms) = map snd (nodes_ms p ms)) /\
  (forall es o p i, map snd (spans_es o es) = map snd (nodes_es p i es)).
Proof.
  apply json_all_ind; try reflexivity.
  - intros w ms IH o p. cbn. rewrite !map_app, (IH _ p). reflexivity.
  - intros w es IH o p. cbn. rewrite !map_app, (IH _ p 0%nat). reflexivity.
  - intros p k v IHv ms IHms o pt. cbn. rewrite !map_app, (IHv _ (pt ++ [(LKey k, v)])), (IHms _ pt). reflexivity.
  - intros wb v IHv wa es IHes o p i. cbn. rewrite !map_app, (IHv _ (p ++ [(LIdx i, v)])), (IHes _ p (S i)). reflexivity.
Qed.

Lemma text_pos : (forall v, wf v = true -> 0 < zlen (text v)).
Proof.
  intros v Hw. destruct v as [s|s|w ms|w l]; cbn [text wf] in *.
  - destruct s; [discriminate|]. rewrite zlen_cons. pose proof (zlen_nonneg s). lia.
  - rewrite zlen_cons, zlen_app. pose proof (zlen_nonneg s). pose proof (zlen_nonneg [DQ]). lia.
  - rewrite zlen_app. pose proof (zlen_nonneg (w ++ text_ms ms ++ B "}")). change (zlen (B "{")) with 1. lia.
  - rewrite zlen_app. pose proof (zlen_nonneg (w ++ text_es l ++ B "]")). change (zlen (B "[")) with 1. lia.
Qed.

Lemma written_mid (pre s post : bytes) : written_at (pre ++ s ++ post) (zlen pre) s.
Proof.
  unfold written_at. split; [apply zlen_nonneg|]. unfold zlen. rewrite Nat2Z.id, skipn_app, skipn_all, Nat.sub_diag. cbn.
  rewrite firstn_app, firstn_all, Nat.sub_diag. cbn. apply app_nil_r.
Qed.

Definition tail_ms (ms : members) : bytes := match ms with MNil => [] | _ => B "," ++ text_ms ms end.
Definition tail_es (es : elements) : bytes := match es with ENil => [] | _ => B "," ++ text_es es end.

Lemma spans_written : 
  (forall v buf pre post, buf = pre ++ text v ++ post ->
     Forall (fun s => written_at buf (fst s) (text (snd s))) (spans (zlen pre) v)) /\
  (forall ms buf pre post, buf = pre ++ text_ms ms ++ post ->
     Forall (fun s => written_at buf (fst s) (text (snd s))) (spans_ms (zlen pre) ms)) /\
  (forall es buf pre post, buf = pre ++ text_es es ++ post ->
     Forall (fun s => written_at buf (fst s) (text (snd s))) (spans_es (zlen pre) es)).
Proof.
  apply json_all_ind.
  - intros s buf pre post ->. constructor; [|constructor]. apply written_mid.
  - intros s buf pre post ->. constructor; [|constructor]. apply written_mid.
  - intros w ms IH buf pre post Hb. cbn [spans]. apply Forall_app. split.
    + replace (zlen pre + 1 + zlen w) with (zlen (pre ++ B "{" ++ w)) by (rewrite !zlen_app; change (zlen (B "{")) with 1; lia).
      apply (IH buf _ (B "}" ++ post)). rewrite Hb. cbn [text]. rewrite <- !app_assoc. reflexivity.
    + constructor; [|constructor]. rewrite Hb. apply written_mid.
  - intros w es IH buf pre post Hb. cbn [spans]. apply Forall_app. split.
    + replace (zlen pre + 1 + zlen w) with (zlen (pre ++ B "[" ++ w)) by (rewrite !zlen_app; change (zlen (B "[")) with 1; lia).
      apply (IH buf _ (B "]" ++ post)). rewrite Hb. cbn [text]. rewrite <- !app_assoc. reflexivity.
    + constructor; [|constructor]. rewrite Hb. apply written_mid.
  - constructor.
  - intros p k v IHv ms IHms buf pre post Hb. cbn [spans_ms].
    assert (E : buf = (pre ++ w_before p ++ (DQ :: k ++ [DQ]) ++ w_colon p ++ B ":" ++ w_value p) ++ text v ++ (w_after p ++ tail_ms ms ++ post)).
    { rewrite Hb. cbn [text_ms]. fold (tail_ms ms). rewrite <- !app_assoc. reflexivity. }
    set (ov := zlen pre + _ + _ + _ + 1 + _).
    assert (Eo : ov = zlen (pre ++ w_before p ++ (DQ :: k ++ [DQ]) ++ w_colon p ++ B ":" ++ w_value p)).
    { unfold ov. repeat (rewrite zlen_app || rewrite zlen_cons). change (zlen (B ":")) with 1. rewrite zlen_nil. lia. }
    apply Forall_app. split; [rewrite Eo; eapply IHv, E|].
    destruct ms as [|p' k' v' ms']; [constructor|].
    set (m1 := MCons p' k' v' ms') in *.
    assert (E2 : buf = ((pre ++ w_before p ++ (DQ :: k ++ [DQ]) ++ w_colon p ++ B ":" ++ w_value p) ++ text v ++ w_after p ++ B ",") ++ text_ms m1 ++ post).
    { rewrite E. change (tail_ms m1) with (B "," ++ text_ms m1). rewrite <- !app_assoc. reflexivity. }
    replace (ov + zlen (text v) + zlen (w_after p) + 1) with
      (zlen ((pre ++ w_before p ++ (DQ :: k ++ [DQ]) ++ w_colon p ++ B ":" ++ w_value p) ++ text v ++ w_after p ++ B ",")).
    { eapply IHms, E2. }
    rewrite zlen_app, <- Eo, !zlen_app. change (zlen (B ",")) with 1. lia.
  - constructor.
  - intros wb v IHv wa es IHes buf pre post Hb. cbn [spans_es].
    assert (E : buf = (pre ++ wb) ++ text v ++ (wa ++ tail_es es ++ post)).
    { rewrite Hb. cbn [text_es]. fold (tail_es es). rewrite <- !app_assoc. reflexivity. }
    rewrite <- zlen_app. apply Forall_app. split; [eapply IHv, E|].
    destruct es as [|wb' v' wa' es']; [constructor|]. set (e1 := ECons wb' v' wa' es') in *.
    assert (E2 : buf = ((pre ++ wb) ++ text v ++ wa ++ B ",") ++ text_es e1 ++ post).
    { rewrite E. change (tail_es e1) with (B "," ++ text_es e1). rewrite <- !app_assoc. reflexivity. }
    replace (zlen (pre ++ wb) + zlen (text v) + zlen wa + 1) with (zlen ((pre ++ wb) ++ text v ++ wa ++ B ",")).
    { eapply IHes, E2. }
    rewrite zlen_app, !zlen_app. change (zlen (B ",")) with 1. lia.
Qed.

(** Ends come in increasing order. *)
Definition before_end (a b : Z * json) : Prop := span_end a < span_end b.

Lemma sorted_app {A} (R : A -> A -> Prop) l1 : forall l2, StronglySorted R l1 -> StronglySorted R l2 ->
  (forall x y, In x l1 -> In y l2 -> R x y) -> StronglySorted R (l1 ++ l2).
Proof.
  induction l1 as [|a l1 IH]; intros l2 H1 H2 H; cbn; [exact H2|]. inversion H1 as [|? ? H3 H4]; subst.
  constructor.
  - apply IH; auto. intros x y Hx Hy. apply H; [right; exact Hx|exact Hy].
  - apply Forall_app. split; [exact H4|]. rewrite Forall_forall. intros y Hy. apply H; [left; reflexivity|exact Hy].
Qed.

Lemma spans_sorted :
  (forall v o, wf v = true -> StronglySorted before_end (spans o v) /\
     Forall (fun s => o <= fst s /\ o < span_end s <= o + zlen (text v)) (spans o v)) /\
  (forall ms o, wf_ms ms = true -> StronglySorted before_end (spans_ms o ms) /\
     Forall (fun s => o <= fst s /\ o < span_end s <= o + zlen (text_ms ms)) (spans_ms o ms)) /\
  (forall es o, wf_es es = true -> StronglySorted before_end (spans_es o es) /\
     Forall (fun s => o <= fst s /\ o < span_end s <= o + zlen (text_es es)) (spans_es o es)).
Proof.
  apply json_all_ind.
  - intros s o Hw. pose proof (text_pos _ Hw). split; [repeat constructor|]. repeat constructor; cbn [fst snd]; unfold span_end; cbn [fst snd]; lia.
  - intros s o Hw. pose proof (text_pos _ Hw). split; [repeat constructor|]. repeat constructor; cbn [fst snd]; unfold span_end; cbn [fst snd]; lia.
  - intros w ms IH o Hw. pose proof (text_pos _ Hw) as Hp. cbn [wf] in Hw. apply andb_true_iff in Hw. destruct Hw as [_ Hw].
    cbn [spans]. destruct (IH (o + 1 + zlen w) Hw) as [H1 H2]. rewrite Forall_forall in H2.
    pose proof (zlen_nonneg w) as Hw0.
    assert (Ht : zlen (text (JObj w ms)) = 1 + zlen w + zlen (text_ms ms) + 1).
    { cbn [text]. rewrite !zlen_app. change (zlen (B "{")) with 1. change (zlen (B "}")) with 1. lia. }
    split.
    + apply sorted_app; [exact H1|repeat constructor|]. intros x y Hx [<-|[]]. specialize (H2 x Hx). unfold before_end.
      unfold span_end at 2. cbn [fst snd]. lia.
    + apply Forall_app. split.
      * rewrite Forall_forall. intros x Hx. specialize (H2 x Hx). lia.
      * repeat constructor; unfold span_end; cbn [fst snd]; lia.
  - intros w es IH o Hw. pose proof (text_pos _ Hw) as Hp. cbn [wf] in Hw. apply andb_true_iff in Hw. destruct Hw as [_ Hw].
    cbn [spans]. destruct (IH (o + 1 + zlen w) Hw) as [H1 H2]. rewrite Forall_forall in H2.
    pose proof (zlen_nonneg w) as Hw0.
    assert (Ht : zlen (text (JArr w es)) = 1 + zlen w + zlen (text_es es) + 1).
    { cbn [text]. rewrite !zlen_app. change (zlen (B "[")) with 1. change (zlen (B "]")) with 1. lia. }
    split.
    + apply sorted_app; [exact H1|repeat constructor|]. intros x y Hx [<-|[]]. specialize (H2 x Hx). unfold before_end.
      unfold span_end at 2. cbn [fst snd]. lia.
    + apply Forall_app. split.
      * rewrite Forall_forall. intros x Hx. specialize (H2 x Hx). lia.
      * repeat constructor; unfold span_end; cbn [fst snd]; lia.
  - intros o _. split; constructor.
  - intros p k v IHv ms IHms o Hw. cbn [wf_ms] in Hw. rewrite !andb_true_iff in Hw. destruct Hw as [[[[[[_ _] _] _] _] Hv] Hms].
    cbn [spans_ms]. set (ov := o + _ + _ + _ + 1 + _).
    assert (Hov : o < ov).
    { unfold ov. pose proof (zlen_nonneg (w_before p)). pose proof (zlen_nonneg k). pose proof (zlen_nonneg (w_colon p)). pose proof (zlen_nonneg (w_value p)). lia. }
    destruct (IHv ov Hv) as [H1 H2]. destruct (IHms (ov + zlen (text v) + zlen (w_after p) + 1) Hms) as [H3 H4].
    rewrite Forall_forall in H2, H4. pose proof (zlen_nonneg (w_after p)) as Ha. pose proof (zlen_nonneg (tail_ms ms)) as Htl.
    assert (Ht : o + zlen (text_ms (MCons p k v ms)) = ov + zlen (text v) + zlen (w_after p) + zlen (tail_ms ms)).
    { cbn [text_ms]. fold (tail_ms ms). repeat (rewrite zlen_app || rewrite zlen_cons). change (zlen (B ":")) with 1. rewrite zlen_nil. unfold ov. destruct ms; unfold tail_ms; lia. }
    assert (Htm : forall s, In s (spans_ms (ov + zlen (text v) + zlen (w_after p) + 1) ms) -> zlen (tail_ms ms) = 1 + zlen (text_ms ms)).
    { intros s Hs. destruct ms; [destruct Hs|]. cbn [tail_ms]. rewrite zlen_app. reflexivity. }
    split.
    + apply sorted_app; auto. intros x y Hx Hy. specialize (H2 x Hx). specialize (H4 y Hy). unfold before_end. lia.
    + apply Forall_app. split; rewrite Forall_forall; intros s Hs.
      * specialize (H2 s Hs). lia.
      * pose proof (Htm s Hs). specialize (H4 s Hs). pose proof (zlen_nonneg (text v)). lia.
  - intros o _. split; constructor.
  - intros wb v IHv wa es IHes o Hw. cbn [wf_es] in Hw. rewrite !andb_true_iff in Hw. destruct Hw as [[[_ Hv] _] Hes].
    cbn [spans_es]. pose proof (zlen_nonneg wb) as Hb0. pose proof (zlen_nonneg wa) as Ha0.
    destruct (IHv (o + zlen wb) Hv) as [H1 H2]. destruct (IHes (o + zlen wb + zlen (text v) + zlen wa + 1) Hes) as [H3 H4].
    rewrite Forall_forall in H2, H4. pose proof (zlen_nonneg (tail_es es)) as Htl.
    assert (Ht : o + zlen (text_es (ECons wb v wa es)) = o + zlen wb + zlen (text v) + zlen wa + zlen (tail_es es)).
    { cbn [text_es]. fold (tail_es es). rewrite !zlen_app. destruct es; unfold tail_es; lia. }
    assert (Htm : forall s, In s (spans_es (o + zlen wb + zlen (text v) + zlen wa + 1) es) -> zlen (tail_es es) = 1 + zlen (text_es es)).
    { intros s Hs. destruct es; [destruct Hs|]. cbn [tail_es]. rewrite zlen_app. reflexivity. }
    split.
    + apply sorted_app; auto. intros x y Hx Hy. specialize (H2 x Hx). specialize (H4 y Hy). unfold before_end. lia.
    + apply Forall_app. split; rewrite Forall_forall; intros s Hs.
      * specialize (H2 s Hs). lia.
      * pose proof (Htm s Hs). specialize (H4 s Hs). pose proof (zlen_nonneg (text v)). lia.
Qed.

Lemma combine_snd {A C} : forall (l : list A) (m : list C), List.length l = List.length m -> map snd (combine l m) = m.
Proof. induction l as [|a l IH]; intros [|c m] H; try discriminate; cbn; [reflexivity|]. f_equal. apply IH. cbn in H. lia. Qed.
Lemma combine_fst {A C} : forall (l : list A) (m : list C), List.length l = List.length m -> map fst (combine l m) = l.
Proof. induction l as [|a l IH]; intros [|c m] H; try discriminate; cbn; [reflexivity|]. f_equal. apply IH. cbn in H. lia. Qed.

Lemma subseq_app_skip {A} : forall (l l' m' : list A), subseq l' m' -> subseq l' (l ++ m').
Proof. induction l as [|a l IH]; intros l' m' H; cbn; [exact H|]. constructor. apply IH, H. Qed.

(** The answer of a query, with positions. *)
Lemma answer_spans holds q dc : exists l,
  map (fun s => text (snd s)) l = answer_text holds q (d_val dc) /\ subseq l (doc_spans dc).
Proof.
  assert (Hlen : List.length (nodes [] (d_val dc)) = List.length (doc_spans dc)).
  { pose proof (proj1 spans_nodes (d_val dc) (zlen (d_pre dc)) []) as H. apply (f_equal (@List.length json)) in H.
    rewrite !map_length in H. unfold doc_spans. lia. }
  destruct (filter_pair (fun n => selects holds q (fst n)) (nodes [] (d_val dc)) (doc_spans dc) Hlen) as (l' & H1 & H2).
  exists (map snd l'). split.
  - unfold answer_text, answer. rewrite <- H1, !map_map.
    assert (Hall : forall x, In x (combine (nodes [] (d_val dc)) (doc_spans dc)) -> snd (fst x) = snd (snd x)).
    { intros x Hx. apply (In_nth _ _ (fst x, snd x)) in Hx. destruct Hx as (n & Hn & E).
      assert (G : forall (l : list (path * json)) (m : list (Z * json)) n a b, map snd l = map snd m ->
                nth_error (combine l m) n = Some (a, b) -> snd a = snd b).
      { clear. induction l as [|u l IH]; intros [|v m] [|n] a b Hm Hc; cbn in *; try discriminate.
        - injection Hc as <- <-. injection Hm as Hm _. exact Hm.
        - injection Hm as _ Hm. eapply IH; eauto. }
      apply (G (nodes [] (d_val dc)) (doc_spans dc) n).
      - symmetry. apply (proj1 spans_nodes).
      - rewrite (nth_error_nth' _ (fst x, snd x) Hn), E. destruct x; reflexivity. }
    apply map_ext_in. intros x Hx. rewrite (Hall x); [reflexivity|]. eapply subseq_in; eauto.
  - apply (subseq_map snd) in H2. rewrite combine_snd in H2 by exact Hlen. exact H2.
Qed.

(** * Layout *)
Definition strip_path (p : path) : path := map (fun lv => (fst lv, strip (snd lv))) p.
Definition strip_node (n : path * json) : path * json := (strip_path (fst n), strip (snd n)).

Lemma nodes_strip :
  (forall v p, nodes (strip_path p) (strip v) = map strip_node (nodes p v)) /\
  (forall ms p, nodes_ms (strip_path p) (strip_ms ms) = map strip_node (nodes_ms p ms)) /\
  (forall es p i, nodes_es (strip_path p) i (strip_es es) = map strip_node (nodes_es p i es)).
Proof.
  assert (Hsnoc : forall p l v, strip_path p ++ [(l, strip v)] = strip_path (p ++ [(l, v)])).
  { intros p l v. unfold strip_path. rewrite map_app. reflexivity. }
  apply json_all_ind; try reflexivity.
  - intros w ms IH p. cbn [strip nodes]. rewrite map_app, <- IH. reflexivity.
  - intros w es IH p. cbn [strip nodes]. rewrite map_app, <- IH. reflexivity.
  - intros pd k v IHv ms IHms p. cbn [strip_ms nodes_ms]. rewrite map_app, <- IHms, <- IHv, Hsnoc. reflexivity.
  - intros wb v IHv wa es IHes p i. cbn [strip_es nodes_es]. rewrite map_app, <- IHes, <- IHv, Hsnoc. reflexivity.
Qed.

Lemma values_strip :
  (forall v f, values_at f (strip v) = map strip (values_at f v)) /\
  (forall ms k f, values_ms k f (strip_ms ms) = map strip (values_ms k f ms)) /\
  (forall es : elements, True).
Proof.
  apply json_all_ind; auto.
  - intros s f. destruct f; reflexivity.
  - intros s f. destruct f; reflexivity.
  - intros w ms IH f. destruct f as [|k f]; [reflexivity|]. cbn. apply IH.
  - intros w es _ f. destruct f; reflexivity.
  - intros p k v IHv ms IHms k' f. cbn. rewrite map_app, <- IHms. destruct (beq k' k); [rewrite IHv|]; reflexivity.
Qed.

Lemma field_strip f v : field f (strip v) = option_map strip (field f v).
Proof.
  unfold field. rewrite (proj1 values_strip). rewrite map_map. induction (values_at f v) as [|a l IH]; [reflexivity|].
  cbn [map last]. destruct l as [|b l]; [reflexivity|]. exact IH.
Qed.

Lemma json_val_strip N o : json_val N (option_map strip o) = json_val N o.
Proof. destruct o as [[s|s|w ms|w es]|]; reflexivity. Qed.

Lemma meaning_strip N v e : meaning N (fun f => field f (strip v)) e = meaning N (fun f => field f v) e.
Proof.
  induction e as [f|ng lit|s|e IH|op e1 IH1 e2 IH2]; cbn [meaning]; try reflexivity.
  - rewrite field_strip. apply json_val_strip.
  - rewrite IH. reflexivity.
  - rewrite IH1, IH2. reflexivity.
Qed.
Lemma holds_strip N e v : holds N e (strip v) = holds N e v.
Proof. unfold holds. rewrite meaning_strip. reflexivity. Qed.

Lemma selects_strip N : forall p q, selects (holds N) q (strip_path p) = selects (holds N) q p.
Proof.
  induction p as [|[l v] p IH]; intros q; [reflexivity|]. cbn [strip_path map fst snd selects].
  fold (strip_path p). destruct q as [|s q]; [reflexivity|]. destruct s; rewrite ?IH; try reflexivity.
  destruct l; [reflexivity|]. rewrite holds_strip. destruct v; reflexivity.
Qed.

Lemma answer_strip N q v : answer (holds N) q (strip v) = map strip (answer (holds N) q v).
Proof.
  unfold answer. change ([] : path) with (strip_path []) at 1. rewrite (proj1 nodes_strip), map_map.
  induction (nodes [] v) as [|n l IH]; [reflexivity|]. cbn [map filter].
  change (fst (strip_node n)) with (strip_path (fst n)). rewrite (selects_strip N (fst n) q).
  destruct (selects (holds N) q (fst n)); cbn [map]; rewrite IH; reflexivity.
Qed.

Lemma strip_prim v1 v2 : strip v1 = strip v2 -> is_container v1 = false -> v1 = v2.
Proof. destruct v1, v2; cbn; congruence. Qed.
