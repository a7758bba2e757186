(** The filtering stage on the matches of a document. *)
From Verif Require Import Base Util Spec LexProof QueryClass Compress Dfa Stream TreeSem Builder Eval Filter AutoProof
                          BuilderProof Roles Compiled TreeSel SelProof.
Open Scope Z_scope.

(** * Names of fields *)
Lemma dot_split : forall k k' a b, dot_free k = true -> dot_free k' = true ->
  k ++ B "." ++ a = k' ++ B "." ++ b -> k = k' /\ a = b.
Proof.
  induction k as [|c k IH]; intros [|c' k'] a b H1 H2 E; cbn in E.
  - injection E as E. auto.
  - injection E as Ec _. subst c'. discriminate H2.
  - injection E as Ec _. subst c. discriminate H1.
  - injection E as Ec E. cbn in H1, H2. apply andb_true_iff in H1, H2. destruct (IH k' a b) as [-> ->]; try tauto. subst. auto.
Qed.
Lemma dot_in k a : dot_free (k ++ B "." ++ a) = false.
Proof. unfold dot_free. rewrite forallb_app. cbn. apply andb_false_r. Qed.

Lemma join_inj : forall f f', f <> [] -> f' <> [] -> forallb dot_free f = true -> forallb dot_free f' = true ->
  join f = join f' -> f = f'.
Proof.
  induction f as [|k f IH]; intros [|k' f'] H1 H2 D1 D2 E; try congruence.
  cbn [forallb] in D1, D2. apply andb_true_iff in D1, D2. destruct D1 as [D1 D1'], D2 as [D2 D2'].
  destruct f as [|k1 f], f' as [|k1' f'].
  - cbn in E. congruence.
  - cbn [join] in E. rewrite E in D1. fold (join (k1' :: f')) in D1. rewrite dot_in in D1. discriminate.
  - cbn [join] in E. rewrite <- E in D2. fold (join (k1 :: f)) in D2. rewrite dot_in in D2. discriminate.
  - change (k ++ B "." ++ join (k1 :: f) = k' ++ B "." ++ join (k1' :: f')) in E.
    apply dot_split in E; auto. destruct E as [-> E]. f_equal. apply IH; auto; discriminate.
Qed.

Lemma find_condition_map (V : list bytes -> option bytes) : forall F f,
  (forall g, In g F -> join g = join f -> g = f) -> In f F ->
  exists i, find_condition (map (fun g => (join g, V g)) F) (join f) = Some i /\ nth_error F i = Some f.
Proof.
  induction F as [|g F IH]; intros f Hinj Hf; [contradiction|]. cbn [map find_condition].
  destruct (beq (join g) (join f)) eqn:E.
  - apply beq_true in E. rewrite (Hinj g (or_introl eq_refl) E). exists O. auto.
  - destruct Hf as [->|Hf]; [rewrite beq_refl in E; discriminate|].
    destruct (IH f) as (i & Hi & Hn); auto.
    { intros h Hh. apply Hinj. right. exact Hh. }
    exists (S i). rewrite Hi. auto.
Qed.

Lemma set_condition_map (V : list bytes -> option bytes) F i f txt :
  NoDup F -> nth_error F i = Some f ->
  set_condition (map (fun g => (join g, V g)) F) i txt
  = map (fun g => (join g, if fbeq g f then Some txt else V g)) F.
Proof.
  intros Hnd Hi. unfold set_condition. rewrite nth_error_map, Hi. cbn [option_map].
  revert i Hi. induction F as [|g F IH]; intros i Hi; [destruct i; discriminate|].
  inversion Hnd as [|? ? Hg Hnd']; subst. destruct i as [|i]; cbn [nth_error] in Hi; cbn [map upd].
  - injection Hi as ->. rewrite (proj2 (fbeq_true f f) eq_refl). f_equal. apply map_ext_in. intros h Hh.
    destruct (fbeq h f) eqn:E; [|reflexivity]. apply fbeq_true in E. subst. contradiction.
  - assert (fbeq g f = false) as ->.
    { destruct (fbeq g f) eqn:E; [|reflexivity]. apply fbeq_true in E. subst. apply nth_error_In in Hi. contradiction. }
    f_equal. apply IH; auto.
Qed.

(** * Collected field values *)
Definition lkeyw (f : list bytes) (t : list label) : bool :=
  if list_eq_dec (fun a b : label => ltac:(decide equality; [apply bytes_eq_dec|apply Nat.eq_dec]) : {a = b} + {a <> b}) (map LKey f) t
  then true else false.
Lemma lkeyw_true f t : lkeyw f t = true <-> map LKey f = t.
Proof. unfold lkeyw. destruct (list_eq_dec _ _ _); split; congruence. Qed.
Lemma lkey_inj : forall f g, map LKey f = map LKey g -> f = g.
Proof. induction f as [|a f IH]; intros [|b g] H; try discriminate; [reflexivity|]. cbn in H. injection H as -> H. f_equal. auto. Qed.

Definition fvals := list bytes -> option bytes.
Definition mark (o : fvals) (t : list label) (s : bytes) : fvals := fun f => if lkeyw f t then Some s else o f.
Fixpoint col (o : fvals) (t : list label) (v : json) : fvals :=
  match v with
  | JBare _ | JStr _ => mark o t (text v)
  | JObj _ ms => col_ms (mark o t []) t ms
  | JArr _ es => col_es (mark o t []) t 0 es
  end
with col_ms (o : fvals) (t : list label) (ms : members) : fvals :=
  match ms with
  | MNil => o
  | MCons _ k v ms' => col_ms (col o (t ++ [LKey k]) v) t ms'
  end
with col_es (o : fvals) (t : list label) (i : nat) (l : elements) : fvals :=
  match l with
  | ENil => o
  | ECons _ v _ l' => col_es (col o (t ++ [LIdx i]) v) t (S i) l'
  end.

Lemma mark_idx o t s i f : In (LIdx i) t -> mark o t s f = o f.
Proof.
  intros H. unfold mark. destruct (lkeyw f t) eqn:E; [|reflexivity]. apply lkeyw_true in E. subst t.
  apply in_map_iff in H. destruct H as (k & H & _). discriminate.
Qed.
Lemma col_idx i f :
  (forall v o t, In (LIdx i) t -> col o t v f = o f) /\
  (forall ms o t, In (LIdx i) t -> col_ms o t ms f = o f) /\
  (forall l o t n, In (LIdx i) t -> col_es o t n l f = o f).
Proof.
  apply json_all_ind; intros.
  - apply mark_idx with i. assumption.
  - apply mark_idx with i. assumption.
  - cbn [col]. rewrite H by assumption. apply mark_idx with i. assumption.
  - cbn [col]. rewrite H by assumption. apply mark_idx with i. assumption.
  - reflexivity.
  - cbn [col_ms]. rewrite H0 by assumption. apply H. apply in_or_app. auto.
  - reflexivity.
  - cbn [col_es]. rewrite H0 by assumption. apply H. apply in_or_app. auto.
Qed.

(** Only the field itself matters. *)
Lemma mark_ext o o' t s f : o f = o' f -> mark o t s f = mark o' t s f.
Proof. unfold mark. destruct (lkeyw f t); auto. Qed.
Lemma col_ext f :
  (forall v o o' t, o f = o' f -> col o t v f = col o' t v f) /\
  (forall ms o o' t, o f = o' f -> col_ms o t ms f = col_ms o' t ms f) /\
  (forall l o o' t n, o f = o' f -> col_es o t n l f = col_es o' t n l f).
Proof. apply json_all_ind; intros; cbn [col col_ms col_es]; auto using mark_ext. Qed.

(** * Output lists *)
Lemma add_all : forall l o, zlen o + zlen l <= MAX_OUTPUT -> Forall (fun t : bytes => zlen t <= 998) l ->
  foldM addOutputElement l o = Ok (o ++ l).
Proof.
  induction l as [|t l IH]; intros o Hl Hf; cbn [foldM]; [rewrite app_nil_r; reflexivity|].
  rewrite zlen_cons in Hl. pose proof (zlen_nonneg l). inversion Hf; subst. unfold addOutputElement at 1.
  replace (MAX_OUTPUT <=? zlen o) with false by lia. unfold strcopy, MAX_STRING.
  replace (1000 <? zlen t + 2) with false by lia. cbn [bind]. rewrite IH; auto.
  - rewrite <- app_assoc. reflexivity.
  - rewrite zlen_app, zlen_cons, zlen_nil. lia.
Qed.

Lemma zread_upd_same {A} (l : list A) z a : 0 <= z < zlen l -> zread (upd l (Z.to_nat z) a) z = Ok a.
Proof.
  intros H. unfold zread, znth. replace (z <? 0) with false by lia.
  rewrite nth_error_upd_same; [reflexivity|]. unfold zlen in H. lia.
Qed.
Lemma zread_upd_other {A} (l : list A) z z' a : 0 <= z -> z <> z' -> zread (upd l (Z.to_nat z) a) z' = zread l z'.
Proof.
  intros H Hn. unfold zread, znth. destruct (Z.ltb_spec z' 0); [reflexivity|].
  rewrite nth_error_upd_other by lia. reflexivity.
Qed.

(** The text of a value is no marker. *)
Lemma text_marker v : wf v = true -> text v <> B "{" /\ text v <> B "}".
Proof.
  intros H. destruct v; cbn [wf text] in *.
  - destruct s as [|c s]; [discriminate|]. cbn in H. apply andb_true_iff in H. destruct H as [H _].
    split; intros E; injection E as -> ->; discriminate H.
  - split; discriminate.
  - split; [|discriminate]. intros E. injection E as E. apply (f_equal (@List.length ascii)) in E. rewrite !app_length in E. cbn in E. lia.
  - split; discriminate.
Qed.

Section Filt.
  Variable N : numops.
  Variable holds : expr -> json -> bool.
  Variable q : query.
  Variables (d : dfa) (x : qctx) (st : list label -> Z).
  Hypothesis Hrbd : restricted_before_desc false q = true.
  Hypothesis Hslice : forallb slice_ok q = true.
  Hypothesis Hend : end_ok q = true.
  Hypothesis Hfo : fields_ok q = true.
  Hypothesis Hcp : compiled q d x st.
  Hypothesis Hst : forall w j, cls q w = Some (RP j) -> st w < 100.

  Lemma Hne : forall f, In f (query_fields q) -> f <> [].
  Proof.
    intros f Hf. unfold fields_ok in Hfo. rewrite forallb_forall in Hfo. apply Hfo in Hf.
    destruct f; [discriminate|discriminate].
  Qed.
  Lemma Hdf : forall f, In f (query_fields q) -> forallb dot_free f = true.
  Proof.
    intros f Hf. unfold fields_ok in Hfo. rewrite forallb_forall in Hfo. apply Hfo in Hf.
    apply andb_true_iff in Hf. tauto.
  Qed.

  Local Notation es := (es q st).
  Local Notation kd := (kd q).

  (** The filter that applies to the element with these labels. *)
  Definition pexpr (w : list label) : option expr :=
    match cls q w with
    | Some (RP j) => if alive q w then match nth_error q j with Some (SFilter e) => Some e | _ => None end else None
    | _ => None
    end.

  Lemma pexpr_kd w : (exists e, pexpr w = Some e) <-> kd w = DFA_PREDICATE.
  Proof.
    rewrite (kd_pred q). unfold pexpr. split.
    - intros (e & H). destruct (cls q w) as [[j|j|j f|]|]; try discriminate. destruct (alive q w); [|discriminate]. eauto.
    - intros (j & -> & Hc). rewrite Hc. apply (rp_role q Hrbd Hslice Hend Hne) in Hc. destruct Hc as (e & -> & _). eauto.
  Qed.

  Lemma pexpr_spec w e : pexpr w = Some e <-> exists j, nth_error q j = Some (SFilter e) /\ lsel (firstn (S j) q) w = true.
  Proof.
    split.
    - unfold pexpr. intros H. destruct (cls q w) as [[j|j|j f|]|] eqn:Ec; try discriminate. destruct (alive q w) eqn:Ea; [|discriminate].
      destruct (nth_error q j) as [[]|] eqn:Ej; try discriminate. injection H as ->. exists j. split; [exact Ej|].
      pose proof (proj1 (pred_lsel q Hrbd Hslice Hend Hne w j) (conj Ea Ec)) as H. unfold predw in H. rewrite Ej in H. exact H.
    - intros (j & Hj & Hl). assert (Hp : predw q w j = true) by (unfold predw; rewrite Hj; exact Hl).
      apply (pred_lsel q Hrbd Hslice Hend Hne) in Hp. destruct Hp as [Ha Hc]. unfold pexpr. rewrite Hc, Ha, Hj. reflexivity.
  Qed.

  (** What survives: inside an open filtered element ([keep]) and outside
      ([keep0]). *)
  Definition out1 (p : path) (v : json) : list bytes := if lsel q (labels p) then [text v] else [].
  Definition passes (p : path) (v : json) : bool :=
    match pexpr (labels p) with Some e => holds e v | None => true end.

  Fixpoint keep (p : path) (v : json) : list bytes :=
    match v with
    | JBare _ | JStr _ => out1 p v
    | JObj _ ms => if passes p v then keep_ms p ms ++ out1 p v else []
    | JArr _ l => keep_es p 0 l ++ out1 p v
    end
  with keep_ms (p : path) (ms : members) : list bytes :=
    match ms with
    | MNil => []
    | MCons _ k v ms' => keep (p ++ [(LKey k, v)]) v ++ keep_ms p ms'
    end
  with keep_es (p : path) (i : nat) (l : elements) : list bytes :=
    match l with
    | ENil => []
    | ECons _ v _ l' => keep (p ++ [(LIdx i, v)]) v ++ keep_es p (S i) l'
    end.

  Fixpoint keep0 (p : path) (v : json) : list bytes :=
    match v with
    | JBare _ | JStr _ => []
    | JObj _ ms =>
        match pexpr (labels p) with
        | Some e => if holds e v then keep_ms p ms else []
        | None => keep0_ms p ms
        end
    | JArr _ l => keep0_es p 0 l
    end
  with keep0_ms (p : path) (ms : members) : list bytes :=
    match ms with
    | MNil => []
    | MCons _ k v ms' => keep0 (p ++ [(LKey k, v)]) v ++ keep0_ms p ms'
    end
  with keep0_es (p : path) (i : nat) (l : elements) : list bytes :=
    match l with
    | ENil => []
    | ECons _ v _ l' => keep0 (p ++ [(LIdx i, v)]) v ++ keep0_es p (S i) l'
    end.

  Lemma keep_len :
    (forall v p, zlen (keep p v) <= zlen (nodes p v)) /\
    (forall ms p, zlen (keep_ms p ms) <= zlen (nodes_ms p ms)) /\
    (forall l p i, zlen (keep_es p i l) <= zlen (nodes_es p i l)).
  Proof.
    assert (Ho : forall p v, zlen (out1 p v) <= 1) by (intros; unfold out1; destruct (lsel _ _); unfold zlen; cbn; lia).
    apply json_all_ind; intros.
    - apply Ho.
    - apply Ho.
    - cbn [keep nodes]. specialize (H p). rewrite zlen_app. change (zlen [(p, JObj w ms)]) with 1.
      pose proof (zlen_nonneg (nodes_ms p ms)). destruct (passes _ _); [|unfold zlen at 1; cbn; lia].
      rewrite zlen_app. pose proof (Ho p (JObj w ms)). lia.
    - cbn [keep nodes]. specialize (H p O). rewrite !zlen_app. change (zlen [(p, JArr w es)]) with 1.
      pose proof (Ho p (JArr w es)). lia.
    - cbn. lia.
    - cbn [keep_ms nodes_ms]. rewrite !zlen_app. specialize (H (p0 ++ [(LKey k, v)])). specialize (H0 p0). lia.
    - cbn. lia.
    - cbn [keep_es nodes_es]. rewrite !zlen_app. specialize (H (p ++ [(LIdx i, v)])). specialize (H0 p (S i)). lia.
  Qed.
  Lemma keep0_len :
    (forall v p, zlen (keep0 p v) <= zlen (nodes p v)) /\
    (forall ms p, zlen (keep0_ms p ms) <= zlen (nodes_ms p ms)) /\
    (forall l p i, zlen (keep0_es p i l) <= zlen (nodes_es p i l)).
  Proof.
    apply json_all_ind; intros.
    - cbn. lia.
    - cbn. lia.
    - cbn [keep0 nodes]. specialize (H p). rewrite zlen_app. change (zlen [(p, JObj w ms)]) with 1.
      pose proof (zlen_nonneg (nodes_ms p ms)). pose proof (proj1 (proj2 keep_len) ms p).
      destruct (pexpr _) as [e|]; [destruct (holds _ _)|]; unfold zlen in *; cbn [List.length]; lia.
    - cbn [keep0 nodes]. specialize (H p O). rewrite !zlen_app. change (zlen [(p, JArr w es)]) with 1. lia.
    - cbn. lia.
    - cbn [keep0_ms nodes_ms]. rewrite !zlen_app. specialize (H (p0 ++ [(LKey k, v)])). specialize (H0 p0). lia.
    - cbn. lia.
    - cbn [keep0_es nodes_es]. rewrite !zlen_app. specialize (H (p ++ [(LIdx i, v)])). specialize (H0 p (S i)). lia.
  Qed.

  (** ** The tables of field values *)
  Definition repr (C : list (option conditions)) (V : Z -> fvals) : Prop :=
    zlen C = 100 /\
    forall w j, cls q w = Some (RP j) ->
      zread C (st w) = Ok (Some (map (fun f => (join f, V (st w) f)) (the_cf q j))).

  Lemma repr_ext C V V' : repr C V ->
    (forall w j f, cls q w = Some (RP j) -> In f (the_cf q j) -> V (st w) f = V' (st w) f) -> repr C V'.
  Proof.
    intros [HC H] HV. split; [exact HC|]. intros w j Hc. rewrite (H w j Hc). do 2 f_equal.
    apply map_ext_in. intros f Hf. rewrite (HV w j f Hc Hf). reflexivity.
  Qed.

  Definition setv (V : Z -> fvals) (s : Z) (o : fvals) : Z -> fvals := fun s' => if s' =? s then o else V s'.

  Lemma st_range w : 0 <= st w.
  Proof. pose proof (cp_valid _ _ _ _ Hcp w) as H. unfold valid_state in H. lia. Qed.

  Lemma repr_upd C V u j o : repr C V -> cls q u = Some (RP j) ->
    repr (upd C (Z.to_nat (st u)) (Some (map (fun f => (join f, o f)) (the_cf q j)))) (setv V (st u) o).
  Proof.
    intros [HC H] Hu. pose proof (st_range u). pose proof (Hst u j Hu). split.
    - unfold zlen in *. rewrite upd_length. exact HC.
    - intros w j' Hc. unfold setv. destruct (Z.eqb_spec (st w) (st u)) as [E|E].
      + pose proof (cp_cls _ _ _ _ Hcp _ _ E) as Ec. rewrite Hc, Hu in Ec. injection Ec as <-.
        rewrite E. apply zread_upd_same. lia.
      + rewrite zread_upd_other by auto. apply H, Hc.
  Qed.

  Lemma the_cf_in j e f : nth_error q j = Some (SFilter e) -> (In f (the_cf q j) <-> In f (fields_in e)).
  Proof. intros Hj. unfold the_cf. rewrite Hj. apply nub_in. Qed.
  Lemma the_cf_query j f : In f (the_cf q j) -> In f (query_fields q).
  Proof.
    unfold the_cf. destruct (nth_error q j) as [[]|] eqn:Ej; try contradiction. intros H. apply nub_in in H.
    eapply field_in; eauto.
  Qed.
  Lemma the_cf_nodup j : NoDup (the_cf q j).
  Proof. unfold the_cf. destruct (nth_error q j) as [[]|]; try constructor. apply nub_nodup. Qed.

  (** No filtered element between the open one and the current position, unless
      it is not an object. *)
  Definition inner (u t : list label) : Prop :=
    forall t1 l t2, t = t1 ++ l :: t2 -> t1 <> [] -> kd (u ++ t1) = DFA_PREDICATE -> exists i, l = LIdx i.

  Lemma inner_nil u : inner u [].
  Proof. intros t1 l t2 E. destruct t1; discriminate. Qed.
  Lemma inner_snoc u t l : inner u t -> (t <> [] -> kd (u ++ t) = DFA_PREDICATE -> exists i, l = LIdx i) -> inner u (t ++ [l]).
  Proof.
    intros H Hl t1 l' t2 E Hn Hk. destruct t2 as [|y t2] using rev_ind.
    - apply app_inj_tail in E. destruct E as [<- <-]. auto.
    - clear IHt2. rewrite app_comm_cons, app_assoc in E. apply app_inj_tail in E. destruct E as [E _]. eapply H; eauto.
  Qed.

  Lemma pred_last w : kd w = DFA_PREDICATE -> exists w' i, w = w' ++ [LIdx i].
  Proof.
    intros H. apply (kd_pred q) in H. destruct H as (j & _ & Hc). apply (rp_role q Hrbd Hslice Hend Hne) in Hc.
    destruct Hc as (e & Hj & Hm). apply (match_pre q Hrbd Hend j _ w Hj eq_refl Hm).
  Qed.
  Lemma pred_len w j : cls q w = Some (RP j) -> List.length w = S j.
  Proof.
    intros Hc. apply (rp_role q Hrbd Hslice Hend Hne) in Hc.
    destruct Hc as (e & Hj & Hm). apply (match_pre q Hrbd Hend j _ w Hj eq_refl Hm).
  Qed.

  Lemma app_cases {A} : forall (a b c e : list A), a ++ b = c ++ e ->
    (exists l, a = c ++ l /\ e = l ++ b) \/ (exists l, c = a ++ l /\ b = l ++ e).
  Proof.
    induction a as [|y a IH]; intros b c e E.
    - right. exists c. split; [reflexivity|exact E].
    - destruct c as [|z c].
      + left. exists (y :: a). split; [reflexivity|]. cbn in *. congruence.
      + cbn in E. injection E as -> E. destruct (IH _ _ _ E) as [(l & E1 & E2)|(l & E1 & E2)]; [left|right]; exists l; subst; auto.
  Qed.

  (** The field of an open element. *)
  Lemma cond_top u t j f : kd u = DFA_PREDICATE -> inner u t -> t <> [] -> alive q (u ++ t) = true ->
    cls q (u ++ t) = Some (RC j f) -> cls q u = Some (RP j) /\ t = map LKey f.
  Proof.
    intros Hu Hin Ht Ha Hc.
    pose proof (proj1 (cond_lsel q Hrbd Hslice Hend Hne (u ++ t) j f) (conj Ha Hc)) as (e & u' & Hj & Hf & E & Hp).
    assert (Hfn : f <> []) by (apply Hne; eapply field_in; eauto).
    apply (pred_lsel q Hrbd Hslice Hend Hne) in Hp. symmetry in E. destruct (app_cases _ _ _ _ E) as [(l & El & Et)|(l & El & Et)].
    - destruct l as [|l0 l].
      + rewrite app_nil_r in El. subst u'. split; [tauto|exact Et].
      + exfalso. destruct f as [|k f]; [congruence|]. cbn [map] in Et.
        destruct (Hin (l0 :: l) (LKey k) (map LKey f) Et) as (i & Hi); [discriminate| |discriminate].
        rewrite <- El. apply (kd_pred q). exists j. exact Hp.
    - destruct l as [|l0 l] using rev_ind.
      + rewrite app_nil_r in El. subst u'. split; [tauto|]. cbn in Et. congruence.
      + exfalso. clear IHl. destruct (pred_last _ Hu) as (w' & i & Ew). rewrite El, app_assoc in Ew.
        apply app_inj_tail in Ew. destruct Ew as [_ ->].
        assert (Hin' : In (LIdx i) (map LKey f)) by (rewrite Et; apply in_or_app; left; apply in_or_app; right; left; reflexivity).
        apply in_map_iff in Hin'. destruct Hin' as (k & Hk & _). discriminate.
  Qed.

  (** A position that is no tested field leaves the table alone. *)
  Lemma mark_other C V u t s : repr C V -> kd u = DFA_PREDICATE -> kd (u ++ t) <> DFA_CONDITION ->
    repr C (setv V (st u) (mark (V (st u)) t s)).
  Proof.
    intros HC Hu Hn. eapply repr_ext; [exact HC|]. intros w j f Hc Hf. unfold setv.
    destruct (Z.eqb_spec (st w) (st u)) as [E|E]; [|reflexivity]. rewrite E. unfold mark.
    destruct (lkeyw f t) eqn:El; [|reflexivity]. exfalso. apply lkeyw_true in El. apply Hn.
    pose proof (cp_cls _ _ _ _ Hcp _ _ E) as Ec. rewrite Hc in Ec. symmetry in Ec.
    apply (kd_pred q) in Hu. destruct Hu as (j' & Ha & Hc'). rewrite Ec in Hc'. injection Hc' as <-.
    apply (kd_cond q). exists j, f. apply (cond_lsel q Hrbd Hslice Hend Hne).
    pose proof (proj1 (rp_role q Hrbd Hslice Hend Hne u j) Ec) as (e & Hj & _).
    exists e, u. repeat split; auto.
    - apply (the_cf_in j e f Hj), Hf.
    - rewrite El. reflexivity.
    - apply (pred_lsel q Hrbd Hslice Hend Hne). auto.
  Qed.

  (** ** Single tuples *)
  Local Notation run := (foldM (filter_step N x)).

  Definition top_ok (S : list (Z * Z)) (u t : list label) : Prop :=
    match S with [] => True | (s, _) :: _ => s = st u /\ kd u = DFA_PREDICATE /\ inner u t end.
  Definition newV (S : list (Z * Z)) (V : Z -> fvals) (u : list label) (o : fvals) : Z -> fvals :=
    match S with [] => V | _ :: _ => setv V (st u) o end.

  Lemma es_alive w : alive q w = true -> es w = st w.
  Proof. intros H. unfold TreeSel.es. rewrite H. reflexivity. Qed.

  (** A text tuple at a node that is an output or a tested field. *)
  Lemma cond_tuple C V S Bf O u t txt : repr C V -> top_ok S u t -> (S <> [] -> t <> []) -> kd (u ++ t) = DFA_CONDITION ->
    txt <> B "{" -> txt <> B "}" ->
    exists C', repr C' (newV S V u (mark (V (st u)) t txt)) /\
      filter_step N x (mkF C S Bf O) (es (u ++ t), txt) = Ok (mkF C' S Bf O).
  Proof.
    intros HC Ht Hn Hk H1 H2. unfold filter_step.
    rewrite (proj2 (beq_false _ _) H1), (proj2 (beq_false _ _) H2). unfold filter_text. cbn [f_stack f_conds f_buffer f_output].
    apply (kd_cond q) in Hk. destruct Hk as (j & f & Ha & Hc). rewrite (es_alive _ Ha).
    destruct S as [|[s b] S]; [exists C; split; [exact HC|reflexivity]|].
    destruct Ht as (-> & Hu & Hin). destruct (cond_top u t j f Hu Hin (Hn ltac:(discriminate)) Ha Hc) as [Hcu Et].
    cbn [newV]. destruct HC as [HC0 HC]. rewrite (HC u j Hcu). cbn [bind].
    unfold getContextSubtree. rewrite (cp_tree _ _ _ _ Hcp _ _ Hc) by discriminate. cbn [role_tree bind].
    pose proof (proj1 (rc_role q Hrbd Hend Hne _ _ _) Hc) as (e & u' & Hj & Hf & _).
    assert (Hf' : In f (the_cf q j)) by (apply (the_cf_in j e f Hj), Hf).
    assert (Hfq : In f (query_fields q)) by (eapply the_cf_query; eauto).
    destruct (find_condition_map (V (st u)) (the_cf q j) f) as (i & Hi & Hni).
    { intros g Hg Eg. apply the_cf_query in Hg. apply join_inj; auto using Hne, Hdf. }
    { exact Hf'. }
    destruct (map (fun f0 => (join f0, V (st u) f0)) (the_cf q j)) as [|pc0 pcs] eqn:Epc.
    { destruct (the_cf q j); [contradiction|discriminate]. }
    rewrite <- Epc in Hi |- *.
    assert (Hns : node_string (EField f) = Ok (join f)).
    { pose proof (Hne f Hfq). destruct f; [congruence|reflexivity]. }
    rewrite Hns. cbn [bind]. rewrite Hi.
    eexists. split; [|reflexivity]. rewrite (set_condition_map _ _ _ f) by (auto using the_cf_nodup).
    assert (Hext : map (fun g => (join g, if fbeq g f then Some txt else V (st u) g)) (the_cf q j)
                   = map (fun g => (join g, mark (V (st u)) t txt g)) (the_cf q j)).
    { apply map_ext. intros g. f_equal. unfold mark. destruct (lkeyw g t) eqn:El.
      - apply lkeyw_true in El. rewrite Et in El. apply lkey_inj in El. subst g. rewrite (proj2 (fbeq_true f f) eq_refl). reflexivity.
      - destruct (fbeq g f) eqn:Ef; [|reflexivity]. apply fbeq_true in Ef. subst g.
        rewrite (proj2 (lkeyw_true f t)) in El by (symmetry; exact Et). discriminate. }
    rewrite Hext. apply repr_upd; [split; assumption|exact Hcu].
  Qed.

  Lemma out_tuple C V S Bf O u t p txt : repr C V -> top_ok S u t -> kd (labels p) = DFA_OUTPUT_CANDIDATE ->
    txt <> B "{" -> txt <> B "}" -> zlen txt <= 998 -> zlen Bf + 1 <= MAX_OUTPUT ->
    filter_step N x (mkF C S Bf O) (es (labels p), txt) = Ok (mkF C S (Bf ++ match S with [] => [] | _ => [txt] end) O).
  Proof.
    intros HC Ht Hk H1 H2 Hl Hb. unfold filter_step.
    rewrite (proj2 (beq_false _ _) H1), (proj2 (beq_false _ _) H2). unfold filter_text. cbn [f_stack f_conds f_buffer f_output].
    destruct S as [|[s b] S]; [rewrite app_nil_r; reflexivity|]. destruct Ht as (-> & Hu & _).
    apply (kd_pred q) in Hu. destruct Hu as (j & _ & Hcu). rewrite (proj2 HC u j Hcu). cbn [bind].
    unfold TreeSel.kd in Hk. destruct (alive q (labels p)) eqn:Ea; [|discriminate]. rewrite (es_alive _ Ea).
    destruct (cls q (labels p)) as [r|] eqn:Ec; [|discriminate]. destruct (is_out q r) eqn:Eo.
    2:{ destruct r as [j0|j0|j0 f0|]; cbn [accept_of] in Hk; rewrite Eo in Hk; discriminate. }
    unfold getContextSubtree. rewrite (cp_tree _ _ _ _ Hcp _ _ Ec) by (cbn [accept_of]; rewrite Eo; discriminate).
    assert (role_tree q r = None) as -> by (destruct r; try discriminate; reflexivity). cbn [bind].
    unfold addOutputElement. replace (MAX_OUTPUT <=? zlen Bf) with false by lia. unfold strcopy, MAX_STRING.
    replace (1000 <? zlen txt + 2) with false by lia. reflexivity.
  Qed.

  Definition short (ns : list (path * json)) : Prop :=
    forall p v, In (p, v) ns -> lsel q (labels p) = true -> zlen (text v) <= 998.
  Lemma short_app a b : short (a ++ b) <-> short a /\ short b.
  Proof.
    unfold short. split; [intros H; split; intros p v Hn Hl; apply (H p v); auto; apply in_or_app; auto|].
    intros [H1 H2] p v Hn. apply in_app_or in Hn. destruct Hn; eauto.
  Qed.

  Lemma keep_short :
    (forall v p, short (nodes p v) -> Forall (fun t : bytes => zlen t <= 998) (keep p v)) /\
    (forall ms p, short (nodes_ms p ms) -> Forall (fun t : bytes => zlen t <= 998) (keep_ms p ms)) /\
    (forall l p i, short (nodes_es p i l) -> Forall (fun t : bytes => zlen t <= 998) (keep_es p i l)).
  Proof.
    assert (Ho : forall p v ns, In (p, v) ns -> short ns -> Forall (fun t : bytes => zlen t <= 998) (out1 p v)).
    { intros p v ns Hi Hs. unfold out1. destruct (lsel q (labels p)) eqn:E; repeat constructor. eapply Hs; eauto. }
    apply json_all_ind; intros.
    - eapply Ho; [|exact H]. left. reflexivity.
    - eapply Ho; [|exact H]. left. reflexivity.
    - cbn [keep]. destruct (passes _ _); [|constructor]. apply Forall_app. split.
      + apply H. cbn [nodes] in H0. apply short_app in H0. tauto.
      + eapply Ho; [apply self_in_nodes|exact H0].
    - cbn [keep]. apply Forall_app. split.
      + apply H. cbn [nodes] in H0. apply short_app in H0. tauto.
      + eapply Ho; [apply self_in_nodes|exact H0].
    - constructor.
    - cbn [keep_ms nodes_ms] in *. apply short_app in H1. apply Forall_app. split; [apply H|apply H0]; tauto.
    - constructor.
    - cbn [keep_es nodes_es] in *. apply short_app in H1. apply Forall_app. split; [apply H|apply H0]; tauto.
  Qed.

  (** The value of a filter expression on an object, as the code computes it from
      the collected fields. *)
  Definition ev (e : expr) (v : json) : res bool :=
    evaluateExpression N e (map (fun f => (join f, col (fun _ => None) [] v f)) (nub_fields e)).
  Definition good (ns : list (path * json)) : Prop :=
    forall p v e, In (p, v) ns -> is_object v = true -> pexpr (labels p) = Some e -> ev e v = Ok (holds e v).
  Lemma good_app a b : good (a ++ b) <-> good a /\ good b.
  Proof.
    unfold good. split; [intros H; split; intros p v e Hn Ho He; apply (H p v e); auto; apply in_or_app; auto|].
    intros [H1 H2] p v e Hn. apply in_app_or in Hn. destruct Hn; eauto.
  Qed.

  Definition clean (V : Z -> fvals) (w : list label) : Prop :=
    forall w' f, kd (w ++ w') = DFA_PREDICATE -> V (st (w ++ w')) f = None.
  Definition clean1 (V : Z -> fvals) (w : list label) : Prop :=
    forall l w' f, kd (w ++ l :: w') = DFA_PREDICATE -> V (st (w ++ l :: w')) f = None.
  Lemma clean_clean1 V w : clean V w -> clean1 V w.
  Proof. intros H l w' f Hk. apply H, Hk. Qed.
  Lemma clean1_child V w l : clean1 V w -> clean V (w ++ [l]).
  Proof. intros H w' f. rewrite <- app_assoc. apply H. Qed.
  Lemma st_longer u w : kd u = DFA_PREDICATE -> kd w = DFA_PREDICATE -> (List.length u < List.length w)%nat -> st w <> st u.
  Proof.
    intros Hu Hw Hl E. apply (kd_pred q) in Hu, Hw. destruct Hu as (j & _ & Hu), Hw as (j' & _ & Hw).
    pose proof (cp_cls _ _ _ _ Hcp _ _ E) as Ec. rewrite Hu, Hw in Ec. injection Ec as ->.
    apply pred_len in Hu, Hw. lia.
  Qed.
  Lemma clean1_newV K V u t o w : clean1 V w -> top_ok K u t -> w = u ++ t -> clean1 (newV K V u o) w.
  Proof.
    intros H Ht Hw l w' f Hk. destruct K as [|[s b] K]; [apply H, Hk|]. destruct Ht as (_ & Hu & _). cbn [newV]. unfold setv.
    assert (st (w ++ l :: w') <> st u). { apply st_longer; auto. subst w. rewrite !app_length. cbn. lia. }
    destruct (Z.eqb_spec (st (w ++ l :: w')) (st u)); [contradiction|]. apply H, Hk.
  Qed.

  Lemma newV_newV K V u o o' : forall s f, newV K (newV K V u o) u o' s f = newV K V u o' s f.
  Proof. intros s f. destruct K; [reflexivity|]. cbn [newV]. unfold setv. destruct (s =? st u); reflexivity. Qed.
  Lemma newV_top K V u o : K <> [] -> newV K V u o (st u) = o.
  Proof. intros H. destruct K; [congruence|]. cbn [newV]. unfold setv. rewrite Z.eqb_refl. reflexivity. Qed.
  Lemma repr_same C V V' : repr C V -> (forall s f, V s f = V' s f) -> repr C V'.
  Proof. intros H E. eapply repr_ext; eauto. Qed.
  Lemma newV_ext K V u o o' : (forall f, o f = o' f) -> forall s f, newV K V u o s f = newV K V u o' s f.
  Proof. intros H s f. destruct K; [reflexivity|]. cbn [newV]. unfold setv. destruct (s =? st u); auto. Qed.

  (** The optional tuple of a tested field. *)
  Lemma cond_or_mark C V K Bf O u t p txt : repr C V -> top_ok K u t -> labels p = u ++ t -> (K <> [] -> t <> []) ->
    txt <> B "{" -> txt <> B "}" ->
    exists C', repr C' (newV K V u (mark (V (st u)) t txt)) /\
      run (if kd (labels p) =? DFA_CONDITION then [(es (labels p), txt)] else []) (mkF C K Bf O) = Ok (mkF C' K Bf O).
  Proof.
    intros HC Ht Hp Hn H1 H2. destruct (Z.eqb_spec (kd (labels p)) DFA_CONDITION) as [E|E].
    - rewrite Hp in *. destruct (cond_tuple C V K Bf O u t txt HC Ht Hn E H1 H2) as (C' & HC' & Hs).
      exists C'. split; [exact HC'|]. cbn [foldM]. rewrite Hs. reflexivity.
    - exists C. split; [|reflexivity]. destruct K as [|[s b] K]; [exact HC|]. destruct Ht as (-> & Hu & Hin).
      cbn [newV]. apply mark_other; auto. rewrite <- Hp. exact E.
  Qed.
  Lemma out_or_not C V K Bf O u t p v : repr C V -> top_ok K u t -> wf v = true ->
    (lsel q (labels p) = true -> zlen (text v) <= 998) -> zlen Bf + 1 <= MAX_OUTPUT ->
    run (if kd (labels p) =? DFA_OUTPUT_CANDIDATE then [(es (labels p), text v)] else []) (mkF C K Bf O)
    = Ok (mkF C K (Bf ++ match K with [] => [] | _ => out1 p v end) O).
  Proof.
    intros HC Ht Hw Hl Hb. unfold out1. rewrite <- (kd_out q Hrbd Hslice Hend Hne) in *.
    destruct (Z.eqb_spec (kd (labels p)) DFA_OUTPUT_CANDIDATE) as [E|E].
    - destruct (text_marker v Hw). cbn [foldM]. rewrite (out_tuple C V K Bf O u t p (text v)); auto.
    - destruct K; rewrite app_nil_r; reflexivity.
  Qed.

  Lemma close_ok C V K Bf kb O w j e b : repr C V -> cls q w = Some (RP j) -> nth_error q j = Some (SFilter e) ->
    evaluateExpression N e (map (fun f => (join f, V (st w) f)) (the_cf q j)) = Ok b ->
    zlen O + zlen kb <= MAX_OUTPUT -> Forall (fun t : bytes => zlen t <= 998) kb ->
    exists C', repr C' (setv V (st w) (fun _ => None)) /\
      filter_close N x (mkF C ((st w, zlen Bf) :: K) (Bf ++ kb) O)
      = Ok (mkF C' K (Bf ++ match K with [] => [] | _ => if b then kb else [] end)
                     (O ++ match K with [] => if b then kb else [] | _ => [] end)).
  Proof.
    intros HC Hc Hj He Hl Hf. unfold filter_close, read_conds. cbn [f_stack f_conds f_buffer f_output].
    rewrite (proj2 HC w j Hc). cbn [bind]. unfold getContextSubtree.
    rewrite (cp_tree _ _ _ _ Hcp _ _ Hc) by discriminate. cbn [role_tree bind]. rewrite Hj, He. cbn [bind].
    assert (Hfirst : firstn (Z.to_nat (zlen Bf)) (Bf ++ kb) = Bf).
    { unfold zlen. rewrite Nat2Z.id, firstn_app, firstn_all, Nat.sub_diag. cbn. apply app_nil_r. }
    assert (Hskip : skipn (Z.to_nat (zlen Bf)) (Bf ++ kb) = kb).
    { unfold zlen. rewrite Nat2Z.id, skipn_app, skipn_all, Nat.sub_diag. reflexivity. }
    rewrite Hfirst, Hskip. unfold clearPredicateCondtion. rewrite map_map. cbn [fst].
    exists (upd C (Z.to_nat (st w)) (Some (map (fun f => (join f, None)) (the_cf q j)))).
    split; [apply (repr_upd C V w j (fun _ => None) HC Hc)|].
    destruct b; [|destruct K; rewrite !app_nil_r; reflexivity].
    destruct K; rewrite ?app_nil_r; [|reflexivity]. rewrite add_all by assumption. reflexivity.
  Qed.

  Lemma depth_pos w ms : (1 <= stack_need (JObj w ms))%nat.
  Proof. cbn. lia. Qed.

  Lemma run_single t f : run [t] f = filter_step N x f t.
  Proof. cbn [foldM]. destruct (filter_step N x f t); reflexivity. Qed.

  Definition kpB (K : list (Z * Z)) (l : list bytes) : list bytes := match K with [] => [] | _ => l end.
  Definition kpO (K : list (Z * Z)) (l : list bytes) : list bytes := match K with [] => l | _ => [] end.

  Local Notation tv := (tv q d st).
  Local Notation tvm := (tvm q d st).
  Local Notation tve := (tve q d st).

  Local Ltac use_run H :=
    match type of H with ?L = _ => match goal with |- context [bind ?X _] => replace X with L by reflexivity end end; rewrite H.

  Theorem run_all :
    (forall v p ar u t C V K Bf O, wf v = true -> smalls (nodes p v) -> good (nodes p v) -> short (nodes p v) ->
       (kd (labels p) = DFA_PREDICATE -> ar = true) ->
       repr C V -> clean V (labels p) -> top_ok K u t -> labels p = u ++ t -> (K <> [] -> t <> []) ->
       (List.length K + stack_need v <= 100)%nat ->
       zlen Bf + zlen (nodes p v) <= MAX_OUTPUT -> zlen O + zlen (nodes p v) <= MAX_OUTPUT ->
       exists C', repr C' (newV K V u (col (V (st u)) t v)) /\
         run (tv ar p v) (mkF C K Bf O) = Ok (mkF C' K (Bf ++ kpB K (keep p v)) (O ++ kpO K (keep0 p v)))) /\
    (forall ms p u t C V K Bf O, wf_ms ms = true -> small (labels p) -> smalls (nodes_ms p ms) -> good (nodes_ms p ms) -> short (nodes_ms p ms) ->
       (K <> [] -> t <> [] -> kd (labels p) <> DFA_PREDICATE) ->
       repr C V -> clean1 V (labels p) -> top_ok K u t -> labels p = u ++ t ->
       (List.length K + need_ms ms <= 100)%nat ->
       zlen Bf + zlen (nodes_ms p ms) <= MAX_OUTPUT -> zlen O + zlen (nodes_ms p ms) <= MAX_OUTPUT ->
       exists C', repr C' (newV K V u (col_ms (V (st u)) t ms)) /\
         run (tvm p ms) (mkF C K Bf O) = Ok (mkF C' K (Bf ++ kpB K (keep_ms p ms)) (O ++ kpO K (keep0_ms p ms)))) /\
    (forall l p i u t C V K Bf O, wf_es l = true -> smalls (nodes_es p i l) -> good (nodes_es p i l) -> short (nodes_es p i l) ->
       repr C V -> clean1 V (labels p) -> top_ok K u t -> labels p = u ++ t ->
       (List.length K + need_es l <= 100)%nat ->
       zlen Bf + zlen (nodes_es p i l) <= MAX_OUTPUT -> zlen O + zlen (nodes_es p i l) <= MAX_OUTPUT ->
       exists C', repr C' (newV K V u (col_es (V (st u)) t i l)) /\
         run (tve p i l) (mkF C K Bf O) = Ok (mkF C' K (Bf ++ kpB K (keep_es p i l)) (O ++ kpO K (keep0_es p i l)))).
  Proof.
    assert (Hprim : forall v s p ar u t C V K Bf O, v = JBare s \/ v = JStr s ->
       wf v = true -> smalls (nodes p v) -> short (nodes p v) ->
       repr C V -> top_ok K u t -> labels p = u ++ t -> (K <> [] -> t <> []) ->
       zlen Bf + zlen (nodes p v) <= MAX_OUTPUT ->
       exists C', repr C' (newV K V u (mark (V (st u)) t (text v))) /\
         run (tv ar p v) (mkF C K Bf O) = Ok (mkF C' K (Bf ++ kpB K (out1 p v)) O)).
    { intros v s p ar u t C V K Bf O Hv Hw Hs Hsh HC Ht Hp Hn Hb.
      rewrite (tv_prim q d x st Hrbd Hslice Hend Hne Hcp ar p v s (smalls_self _ _ Hs) Hv).
      destruct (text_marker v Hw) as [M1 M2].
      destruct (cond_or_mark C V K Bf O u t p (text v) HC Ht Hp Hn M1 M2) as (C' & HC' & Hrun).
      assert (Hout := out_or_not C' _ K Bf O u t p v HC' Ht Hw (fun H => Hsh p v (self_in_nodes p v) H)).
      assert (Hb1 : zlen Bf + 1 <= MAX_OUTPUT).
      { assert (nodes p v = [(p, v)]) as E by (destruct Hv; subst; reflexivity). rewrite E in Hb. exact Hb. }
      specialize (Hout Hb1). exists C'. split; [exact HC'|].
      destruct (Z.eqb_spec (kd (labels p)) DFA_OUTPUT_CANDIDATE) as [E|E]; cbn [orb].
      - rewrite E in Hrun. replace (DFA_OUTPUT_CANDIDATE =? DFA_CONDITION) with false in Hrun by reflexivity.
        cbn [foldM] in Hrun. injection Hrun as <-. exact Hout.
      - cbn [foldM] in Hout. injection Hout as Hout. unfold kpB. rewrite <- Hout. exact Hrun. }
    apply json_all_ind.
    - intros s p ar u t C V K Bf O Hw Hs Hg Hsh Har HC Hcl Ht Hp Hn Hd Hb Ho.
      destruct (Hprim (JBare s) s p ar u t C V K Bf O) as (C' & HC' & Hr); auto.
      exists C'. split; [exact HC'|]. cbn [keep keep0]. unfold kpO. replace (match K with [] => [] | _ => [] end) with (@nil bytes) by (destruct K; reflexivity).
      rewrite app_nil_r. exact Hr.
    - intros s p ar u t C V K Bf O Hw Hs Hg Hsh Har HC Hcl Ht Hp Hn Hd Hb Ho.
      destruct (Hprim (JStr s) s p ar u t C V K Bf O) as (C' & HC' & Hr); auto.
      exists C'. split; [exact HC'|]. cbn [keep keep0]. unfold kpO. replace (match K with [] => [] | _ => [] end) with (@nil bytes) by (destruct K; reflexivity).
      rewrite app_nil_r. exact Hr.
    - (* objects *)
      intros w0 ms IH p ar u t C V K Bf O Hw Hs Hg Hsh Har HC Hcl Ht Hp Hn Hd Hb Ho.
      pose proof (smalls_self _ _ Hs) as Hs'. rewrite (tv_obj q d x st Hrbd Hslice Hend Hne Hcp ar p w0 ms Hs').
      pose proof (Hsh p _ (self_in_nodes p (JObj w0 ms))) as Hlen.
      pose proof (fun e => Hg p _ e (self_in_nodes p (JObj w0 ms)) eq_refl) as Hge.
      cbn [nodes] in *. apply smalls_app in Hs. destruct Hs as [Hs1 _]. apply good_app in Hg. destruct Hg as [Hg1 _].
      apply short_app in Hsh. destruct Hsh as [Hsh1 _]. rewrite zlen_app in Hb, Ho. change (zlen [(p, JObj w0 ms)]) with 1 in Hb, Ho.
      assert (Hwm : wf_ms ms = true) by (cbn [wf] in Hw; apply andb_true_iff in Hw; tauto).
      cbn [stack_need] in Hd.
      destruct (Z.eqb_spec (kd (labels p)) DFA_PREDICATE) as [Ek|Ek].
      + (* a filtered element *)
        rewrite (Har Ek), Ek. cbn [andb]. replace (DFA_PREDICATE =? DFA_OUTPUT_CANDIDATE) with false by reflexivity.
        cbn [app]. pose proof (proj1 (kd_pred q _) Ek) as (j & Ha & Hc).
        pose proof (proj1 (rp_role q Hrbd Hslice Hend Hne _ _) Hc) as (e & Hj & _).
        assert (Hpe : pexpr (labels p) = Some e) by (unfold pexpr; rewrite Hc, Ha, Hj; reflexivity).
        rewrite (es_alive _ Ha).
        change ((st (labels p), B "{") :: tvm p ms ++ [(st (labels p), B "}")])
          with ([(st (labels p), B "{")] ++ tvm p ms ++ [(st (labels p), B "}")]).
        rewrite foldM_app, run_single. unfold filter_step at 1. rewrite beq_refl. unfold filter_open. cbn [f_stack f_conds f_buffer f_output].
        replace (Nat.leb MAX_STACK_ELEMENT (List.length K)) with false
          by (symmetry; apply Nat.leb_gt; unfold MAX_STACK_ELEMENT; lia). cbn [bind].
        rewrite foldM_app.
        destruct (IH p (labels p) [] C V ((st (labels p), zlen Bf) :: K) Bf O) as (C1 & HC1 & Hr1); auto.
        { apply clean_clean1. exact Hcl. }
        { repeat split; auto. apply inner_nil. }
        { rewrite app_nil_r. reflexivity. }
        { cbn [List.length]. lia. }
        { lia. } { lia. }
        rewrite Hr1. cbn [bind kpB kpO]. rewrite app_nil_r, run_single. unfold filter_step.
        replace (beq (B "}") (B "{")) with false by reflexivity. rewrite beq_refl.
        cbn [newV] in HC1. set (V1 := setv V (st (labels p)) (col_ms (V (st (labels p))) [] ms)) in *.
        assert (Hev : evaluateExpression N e (map (fun f => (join f, V1 (st (labels p)) f)) (the_cf q j)) = Ok (holds e (JObj w0 ms))).
        { rewrite <- (Hge e Hpe). unfold ev. f_equal. unfold the_cf. rewrite Hj. apply map_ext_in. intros f Hf. f_equal.
          unfold V1, setv. rewrite Z.eqb_refl. cbn [col]. apply (proj1 (proj2 (col_ext f))).
          assert (Hz : V (st (labels p)) f = None).
          { pose proof (Hcl [] f) as H. rewrite app_nil_r in H. apply H, Ek. }
          rewrite Hz. unfold mark. destruct (lkeyw f []) eqn:El; [|reflexivity].
          apply lkeyw_true in El. destruct f; [|discriminate]. exfalso. apply (Hne []); [|reflexivity].
          eapply field_in; [exact Hj|]. apply nub_in. exact Hf. }
        pose proof (proj1 (proj2 keep_len) ms p) as Hkl.
        destruct (close_ok C1 V1 K Bf (keep_ms p ms) O (labels p) j e _ HC1 Hc Hj Hev) as (C2 & HC2 & Hr2).
        { lia. } { apply keep_short. exact Hsh1. }
        rewrite Hr2. exists C2. split.
        * eapply repr_same; [exact HC2|]. intros s f. unfold setv at 1.
          destruct (Z.eqb_spec s (st (labels p))) as [->|Es].
          -- assert (Hz : V (st (labels p)) f = None).
             { pose proof (Hcl [] f) as H. rewrite app_nil_r in H. apply H, Ek. }
             destruct K as [|[s b] K]; [cbn [newV]; congruence|]. cbn [newV]. unfold setv.
             destruct (Z.eqb_spec (st (labels p)) (st u)) as [E|E]; [|congruence].
             exfalso. destruct Ht as (_ & Hu & _). revert E. apply st_longer; auto. rewrite Hp, app_length.
             assert (t <> []) by (apply Hn; discriminate). destruct t; [congruence|cbn; lia].
          -- unfold V1, setv. destruct (Z.eqb_spec s (st (labels p))); [contradiction|].
             destruct K as [|[s' b] K]; [reflexivity|]. cbn [newV]. unfold setv.
             destruct (Z.eqb_spec s (st u)) as [->|]; [|reflexivity].
             destruct (pred_last _ Ek) as (w' & i & Ew). rewrite Hp in Ew.
             assert (Hti : In (LIdx i) t).
             { assert (Htn : t <> []) by (apply Hn; discriminate). destruct (exists_last Htn) as (t' & l & ->).
               rewrite app_assoc in Ew. apply app_inj_tail in Ew. destruct Ew as [_ ->]. apply in_or_app. right. left. reflexivity. }
             symmetry. apply (proj1 (col_idx i f)). exact Hti.
        * unfold kpB, kpO. cbn [keep keep0]. unfold passes. rewrite Hpe.
          assert (Hno : out1 p (JObj w0 ms) = []).
          { unfold out1. rewrite <- (kd_out q Hrbd Hslice Hend Hne), Ek. reflexivity. }
          rewrite Hno, app_nil_r. destruct K; destruct (holds e _); reflexivity.
      + (* an ordinary object *)
        rewrite andb_false_r, app_nil_r, !foldM_app.
        destruct (cond_or_mark C V K Bf O u t p [] HC Ht Hp Hn ltac:(discriminate) ltac:(discriminate)) as (C1 & HC1 & Hr1).
        use_run Hr1. cbn [bind]. rewrite foldM_app.
        destruct (IH p u t C1 (newV K V u (mark (V (st u)) t [])) K Bf O) as (C2 & HC2 & Hr2); auto.
        { eapply clean1_newV; eauto. apply clean_clean1. exact Hcl. }
        { lia. } { lia. } { lia. }
        rewrite Hr2. cbn [bind].
        assert (Hsp : pexpr (labels p) = None).
        { destruct (pexpr (labels p)) as [e|] eqn:Ee; [|reflexivity]. exfalso. apply Ek, pexpr_kd. eauto. }
        pose proof (proj1 (proj2 keep_len) ms p) as Hkl.
        rewrite (out_or_not C2 _ K _ _ u t p (JObj w0 ms) HC2 Ht Hw Hlen).
        2:{ rewrite zlen_app. unfold kpB. destruct K; unfold zlen in *; cbn [List.length]; lia. }
        exists C2. split.
        * eapply repr_same; [exact HC2|]. intros s f. rewrite newV_newV. destruct K as [|[s0 b0] K]; [reflexivity|].
          apply newV_ext. intros f'. cbn [col]. apply (proj1 (proj2 (col_ext f'))). rewrite newV_top by discriminate. reflexivity.
        * cbn [keep keep0]. unfold passes. rewrite Hsp. unfold kpB, kpO. rewrite <- app_assoc.
          destruct K; rewrite ?app_nil_r; reflexivity.
    - (* arrays *)
      intros w0 l IH p ar u t C V K Bf O Hw Hs Hg Hsh Har HC Hcl Ht Hp Hn Hd Hb Ho.
      pose proof (smalls_self _ _ Hs) as Hs'. rewrite (tv_arr q d x st Hrbd Hslice Hend Hne Hcp ar p w0 l Hs').
      pose proof (Hsh p _ (self_in_nodes p (JArr w0 l))) as Hlen.
      cbn [nodes] in *. apply smalls_app in Hs. destruct Hs as [Hs1 _]. apply good_app in Hg. destruct Hg as [Hg1 _].
      apply short_app in Hsh. destruct Hsh as [Hsh1 _]. rewrite zlen_app in Hb, Ho. change (zlen [(p, JArr w0 l)]) with 1 in Hb, Ho.
      assert (Hwm : wf_es l = true) by (cbn [wf] in Hw; apply andb_true_iff in Hw; tauto).
      cbn [stack_need] in Hd. rewrite !foldM_app.
      destruct (cond_or_mark C V K Bf O u t p [] HC Ht Hp Hn ltac:(discriminate) ltac:(discriminate)) as (C1 & HC1 & Hr1).
      use_run Hr1. cbn [bind]. rewrite foldM_app.
      destruct (IH p 0%nat u t C1 (newV K V u (mark (V (st u)) t [])) K Bf O) as (C2 & HC2 & Hr2); auto.
      { eapply clean1_newV; eauto. apply clean_clean1. exact Hcl. }
      { lia. } { lia. } { lia. }
      rewrite Hr2. cbn [bind].
      pose proof (proj2 (proj2 keep_len) l p 0%nat) as Hkl.
      rewrite (out_or_not C2 _ K _ _ u t p (JArr w0 l) HC2 Ht Hw Hlen).
      2:{ rewrite zlen_app. unfold kpB. destruct K; unfold zlen in *; cbn [List.length]; lia. }
      exists C2. split.
      * eapply repr_same; [exact HC2|]. intros s f. rewrite newV_newV. destruct K as [|[s0 b0] K]; [reflexivity|].
        apply newV_ext. intros f'. cbn [col]. apply (proj2 (proj2 (col_ext f'))). rewrite newV_top by discriminate. reflexivity.
      * cbn [keep keep0]. unfold kpB, kpO. rewrite <- app_assoc.
        destruct K; rewrite ?app_nil_r; reflexivity.
    - intros p u t C V K Bf O _ _ _ _ _ _ HC _ _ _ _ _ _. exists C. split.
      + cbn [col_ms]. eapply repr_same; [exact HC|]. intros s f. destruct K; [reflexivity|]. cbn [newV]. unfold setv. destruct (Z.eqb_spec s (st u)); congruence.
      + cbn. unfold kpB, kpO. destruct K; rewrite !app_nil_r; reflexivity.
    - intros m k v IHv ms IHm p u t C V K Bf O Hw Hsm Hs Hg Hsh Hnp HC Hcl Ht Hp Hd Hb Ho.
      rewrite (tvm_cons q d x st Hrbd Hslice Hend Hne Hcp p m k v ms Hsm).
      cbn [nodes_ms] in *. apply smalls_app in Hs. destruct Hs as [Hs1 Hs2]. apply good_app in Hg. destruct Hg as [Hg1 Hg2].
      apply short_app in Hsh. destruct Hsh as [Hsh1 Hsh2]. rewrite zlen_app in Hb, Ho.
      cbn [wf_ms] in Hw. apply andb_true_iff in Hw. destruct Hw as [Hw Hw2]. apply andb_true_iff in Hw. destruct Hw as [_ Hw1].
      cbn [need_ms] in Hd. pose proof (zlen_nonneg (nodes_ms p ms)). pose proof (zlen_nonneg (nodes (p ++ [(LKey k, v)]) v)).
      assert (Hp1 : labels (p ++ [(LKey k, v)]) = u ++ (t ++ [LKey k])) by (rewrite labels_snoc, Hp, app_assoc; reflexivity).
      rewrite foldM_app.
      destruct (IHv (p ++ [(LKey k, v)]) false u (t ++ [LKey k]) C V K Bf O) as (C1 & HC1 & Hr1); auto.
      { intros Hk. exfalso. destruct (pred_last _ Hk) as (w' & i & Ew). rewrite labels_snoc in Ew. apply app_inj_tail in Ew. destruct Ew. discriminate. }
      { rewrite labels_snoc. apply clean1_child. exact Hcl. }
      { destruct K as [|[s b] K]; [exact I|]. destruct Ht as (-> & Hu & Hin). repeat split; auto. apply inner_snoc; auto.
        intros Htn Hk. exfalso. rewrite <- Hp in Hk. revert Hk. apply Hnp; auto; discriminate. }
      { intros _ E. destruct t; discriminate. }
      { lia. } { lia. } { lia. }
      rewrite Hr1. cbn [bind].
      pose proof (proj1 keep_len v (p ++ [(LKey k, v)])) as Hk1. pose proof (proj1 keep0_len v (p ++ [(LKey k, v)])) as Hk2.
      destruct (IHm p u t C1 (newV K V u (col (V (st u)) (t ++ [LKey k]) v)) K
                  (Bf ++ kpB K (keep (p ++ [(LKey k, v)]) v)) (O ++ kpO K (keep0 (p ++ [(LKey k, v)]) v))) as (C2 & HC2 & Hr2); auto.
      { eapply clean1_newV; eauto. }
      { lia. }
      { rewrite zlen_app. unfold kpB. destruct K; unfold zlen in *; cbn [List.length]; lia. }
      { rewrite zlen_app. unfold kpO. destruct K; unfold zlen in *; cbn [List.length]; lia. }
      rewrite Hr2. exists C2. split.
      * eapply repr_same; [exact HC2|]. intros s f. rewrite newV_newV. destruct K as [|[s0 b0] K]; [reflexivity|].
        apply newV_ext. intros f'. cbn [col_ms]. apply (proj1 (proj2 (col_ext f'))). rewrite newV_top by discriminate. reflexivity.
      * cbn [keep_ms keep0_ms]. unfold kpB, kpO. rewrite <- !app_assoc. destruct K; reflexivity.
    - intros p i u t C V K Bf O _ _ _ _ HC _ _ _ _ _ _. exists C. split.
      + cbn [col_es]. eapply repr_same; [exact HC|]. intros s f. destruct K; [reflexivity|]. cbn [newV]. unfold setv. destruct (Z.eqb_spec s (st u)); congruence.
      + cbn. unfold kpB, kpO. destruct K; rewrite !app_nil_r; reflexivity.
    - intros wb v IHv wa l IHl p i u t C V K Bf O Hw Hs Hg Hsh HC Hcl Ht Hp Hd Hb Ho.
      rewrite (tve_cons q d x st Hrbd Hslice Hend Hcp p i wb v wa l).
      cbn [nodes_es] in *. apply smalls_app in Hs. destruct Hs as [Hs1 Hs2]. apply good_app in Hg. destruct Hg as [Hg1 Hg2].
      apply short_app in Hsh. destruct Hsh as [Hsh1 Hsh2]. rewrite zlen_app in Hb, Ho.
      cbn [wf_es] in Hw. apply andb_true_iff in Hw. destruct Hw as [Hw Hw2]. apply andb_true_iff in Hw. destruct Hw as [Hw _].
      apply andb_true_iff in Hw. destruct Hw as [_ Hw1].
      cbn [need_es] in Hd. pose proof (zlen_nonneg (nodes_es p (S i) l)). pose proof (zlen_nonneg (nodes (p ++ [(LIdx i, v)]) v)).
      assert (Hp1 : labels (p ++ [(LIdx i, v)]) = u ++ (t ++ [LIdx i])) by (rewrite labels_snoc, Hp, app_assoc; reflexivity).
      rewrite foldM_app.
      destruct (IHv (p ++ [(LIdx i, v)]) true u (t ++ [LIdx i]) C V K Bf O) as (C1 & HC1 & Hr1); auto.
      { rewrite labels_snoc. apply clean1_child. exact Hcl. }
      { destruct K as [|[s b] K]; [exact I|]. destruct Ht as (-> & Hu & Hin). repeat split; auto. apply inner_snoc; eauto. }
      { intros _ E. destruct t; discriminate. }
      { lia. } { lia. } { lia. }
      rewrite Hr1. cbn [bind].
      pose proof (proj1 keep_len v (p ++ [(LIdx i, v)])) as Hk1. pose proof (proj1 keep0_len v (p ++ [(LIdx i, v)])) as Hk2.
      destruct (IHl p (S i) u t C1 (newV K V u (col (V (st u)) (t ++ [LIdx i]) v)) K
                  (Bf ++ kpB K (keep (p ++ [(LIdx i, v)]) v)) (O ++ kpO K (keep0 (p ++ [(LIdx i, v)]) v))) as (C2 & HC2 & Hr2); auto.
      { eapply clean1_newV; eauto. }
      { lia. }
      { rewrite zlen_app. unfold kpB. destruct K; unfold zlen in *; cbn [List.length]; lia. }
      { rewrite zlen_app. unfold kpO. destruct K; unfold zlen in *; cbn [List.length]; lia. }
      rewrite Hr2. exists C2. split.
      * eapply repr_same; [exact HC2|]. intros s f. rewrite newV_newV. destruct K as [|[s0 b0] K]; [reflexivity|].
        apply newV_ext. intros f'. cbn [col_es]. apply (proj2 (proj2 (col_ext f'))). rewrite newV_top by discriminate. reflexivity.
      * cbn [keep_es keep0_es]. unfold kpB, kpO. rewrite <- !app_assoc. destruct K; reflexivity.
  Qed.
End Filt.
