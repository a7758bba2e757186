(** What the query compiler collects: one path expression for every slice, every
    filter, every field tested by a filter, and for the whole query. *)
From Verif Require Import Base Spec QueryClass Regex RegexProof Mixer Compress
                          Dfa Builder AutoProof.
Open Scope Z_scope.

(** * The expressions of a query *)
Definition bounds (lo hi : option Z) : Z * Z :=
  (match lo with Some x => x | None => INT_MIN end, match hi with Some x => x | None => INT_MAX end).

Definition se_of (s : step) : list se :=
  match s with
  | SChild k => [SeDot k]
  | SChildAny => [SeDotAll]
  | SDesc k => [SeParent k]
  | SDescAny => [SeParentAll]
  | SAll | SFilter _ => [SeArray]
  | SSlice lo hi => [SeIndex (fst (bounds lo hi)) (snd (bounds lo hi))]
  | SIndex _ => []
  end.
Definition stack_of (q : query) : list se := flat_map se_of q.

(** Fields of a filter without repetitions, in order of first use. *)
Definition fbeq (a b : list bytes) : bool := if list_eq_dec bytes_eq_dec a b then true else false.
Definition add_new (l : list (list bytes)) (f : list bytes) : list (list bytes) :=
  if existsb (fbeq f) l then l else l ++ [f].
Definition nub_fields (e : expr) : list (list bytes) := fold_left add_new (fields_in e) [].

Inductive role : Type :=
| RS (j : nat)                       (* the slice in step j            *)
| RP (j : nat)                       (* the filter in step j           *)
| RC (j : nat) (f : list bytes)      (* a field tested by that filter  *)
| RO.                                (* the whole query                *)

Definition step_roles (j : nat) (s : step) : list role :=
  match s with
  | SSlice _ _ => [RS j]
  | SFilter e => RP j :: map (RC j) (nub_fields e)
  | _ => []
  end.
Fixpoint roles_from (j : nat) (q : query) : list role :=
  match q with [] => [] | s :: q' => step_roles j s ++ roles_from (S j) q' end.

Definition ends_in_slice (q : query) : bool :=
  match last_step q with Some (SSlice _ _) => true | _ => false end.
Definition roles (q : query) : list role :=
  roles_from 0 q ++ (if ends_in_slice q then [] else [RO]).

Definition role_st (q : query) (r : role) : list se :=
  match r with
  | RS j | RP j => stack_of (firstn (S j) q)
  | RC j f => stack_of (firstn (S j) q) ++ map SeDot f
  | RO => stack_of q
  end.
Definition role_rng (q : query) (r : role) : Z * Z :=
  match r with
  | RS j => match nth_error q j with Some (SSlice lo hi) => bounds lo hi | _ => (0, 0) end
  | _ => (0, 0)
  end.
Definition role_tree (q : query) (r : role) : option expr :=
  match r with
  | RP j => match nth_error q j with Some (SFilter e) => Some e | _ => None end
  | RC _ f => Some (EField f)
  | _ => None
  end.

(** * Small facts *)
Lemma fbeq_true a b : fbeq a b = true <-> a = b.
Proof. unfold fbeq. destruct (list_eq_dec _ a b); split; congruence. Qed.

Lemma st_eqb_true a b : st_eqb a b = true <-> a = b.
Proof. unfold st_eqb. destruct (list_eq_dec _ a b); split; congruence. Qed.

Lemma stack_of_app q1 q2 : stack_of (q1 ++ q2) = stack_of q1 ++ stack_of q2.
Proof. apply flat_map_app. Qed.

Lemma fields_of_in e : fields_of e = fields_in e.
Proof. induction e; cbn; congruence. Qed.

Lemma name_code_app names extra k i c : name_code names k i = Some c ->
  name_code (names ++ extra) k i = Some c.
Proof.
  revert i. induction names as [|n names IH]; intros i H; cbn in *; [discriminate|].
  destruct (beq n k); [exact H|]. apply IH, H.
Qed.

Lemma code_of_app names extra k : In k names -> code_of (names ++ extra) k = code_of names k.
Proof.
  intros H. unfold code_of. destruct (name_code names k 3) as [c|] eqn:E.
  - rewrite (name_code_app _ _ _ _ _ E). reflexivity.
  - apply name_code_none in E. contradiction.
Qed.

Lemma items_app names extra st : incl (st_names st) names ->
  flat_map (items_of (names ++ extra)) st = flat_map (items_of names) st.
Proof.
  induction st as [|s st IH]; intros H; [reflexivity|]. cbn [flat_map].
  rewrite IH.
  - f_equal. assert (incl (se_names s) names) as Hs.
    { intros k Hk. apply H. unfold st_names. cbn. apply in_or_app. left. exact Hk. }
    destruct s; cbn [items_of]; try reflexivity; rewrite code_of_app by (apply Hs; left; reflexivity); reflexivity.
  - intros k Hk. apply H. unfold st_names. cbn. apply in_or_app. right. exact Hk.
Qed.

Lemma add_name_spec names k : NoDup names ->
  exists extra, add_name names k = names ++ extra /\ NoDup (names ++ extra) /\ In k (names ++ extra)
    /\ incl extra [k].
Proof.
  intros Hn. unfold add_name. destruct (name_code names k 3) as [c|] eqn:E.
  - exists []. rewrite app_nil_r. split; [reflexivity|]. split; [exact Hn|]. split.
    + apply name_code_some in E. destruct E as [_ E]. eapply nth_error_In; eauto.
    + intros x [].
  - exists [k]. split; [reflexivity|]. apply name_code_none in E. split.
    + apply NoDup_snoc; assumption.
    + split; [apply in_or_app; right; left; reflexivity|]. intros x Hx. exact Hx.
Qed.

Lemma add_names_spec : forall st names, NoDup names ->
  exists extra, fold_left add_se_name st names = names ++ extra /\ NoDup (names ++ extra)
    /\ incl (st_names st) (names ++ extra) /\ incl extra (st_names st).
Proof.
  induction st as [|s st IH]; intros names Hn; cbn [fold_left].
  - exists []. rewrite app_nil_r. repeat split; auto; intros x [].
  - assert (exists e1, add_se_name names s = names ++ e1 /\ NoDup (names ++ e1)
              /\ incl (se_names s) (names ++ e1) /\ incl e1 (se_names s)) as (e1 & H1 & H2 & H3 & H4).
    { assert (Hz : exists e1, names = names ++ e1 /\ NoDup (names ++ e1) /\ incl [] (names ++ e1) /\ incl e1 (@nil bytes)).
      { exists []. rewrite app_nil_r. repeat split; auto; intros x []. }
      destruct s; cbn [add_se_name se_names]; try exact Hz.
      - destruct (add_name_spec names k Hn) as (e & E1 & E2 & E3 & E4). exists e. repeat split; auto.
        intros x [<-|[]]. exact E3.
      - destruct (add_name_spec names k Hn) as (e & E1 & E2 & E3 & E4). exists e. repeat split; auto.
        intros x [<-|[]]. exact E3. }
    rewrite H1. destruct (IH _ H2) as (e2 & I1 & I2 & I3 & I4).
    exists (e1 ++ e2). rewrite app_assoc. split; [exact I1|]. split; [exact I2|]. split.
    + unfold st_names. cbn [flat_map]. intros x Hx. apply in_app_or in Hx. destruct Hx as [Hx|Hx].
      * apply in_or_app. left. apply H3, Hx.
      * apply I3, Hx.
    + intros x Hx. unfold st_names. cbn [flat_map]. apply in_app_or in Hx. apply in_or_app.
      destruct Hx as [Hx|Hx]; [left; apply H4, Hx|right; apply I4, Hx].
Qed.

Lemma map_get_push m key v : forall k, map_get (map_push m key v) k =
  if k =? key then map_get m key ++ [v] else map_get m k.
Proof.
  induction m as [|[k0 l] m IH]; intros k; cbn [map_push map_get].
  - destruct (Z.eqb_spec key k); destruct (Z.eqb_spec k key); try reflexivity; congruence.
  - destruct (Z.eqb_spec k0 key) as [->|Hn]; cbn [map_get].
    + destruct (Z.eqb_spec key k) as [->|]; [rewrite Z.eqb_refl; reflexivity|].
      destruct (Z.eqb_spec k key); [congruence|reflexivity].
    + rewrite IH. destruct (Z.eqb_spec k0 k) as [->|]; [|reflexivity].
      destruct (Z.eqb_spec k key); [congruence|reflexivity].
Qed.

Lemma map_get_clear m key : forall k, map_get (map_clear m key) k = if k =? key then [] else map_get m k.
Proof.
  induction m as [|[k0 l] m IH]; intros k; cbn [map_clear map_get].
  - destruct (Z.eqb_spec key k); destruct (Z.eqb_spec k key); reflexivity.
  - destruct (Z.eqb_spec k0 key) as [->|Hn]; cbn [map_get].
    + destruct (Z.eqb_spec key k) as [->|]; [rewrite Z.eqb_refl; reflexivity|].
      destruct (Z.eqb_spec k key); [congruence|reflexivity].
    + rewrite IH. destruct (Z.eqb_spec k0 k) as [->|]; [|reflexivity].
      destruct (Z.eqb_spec k key); [congruence|reflexivity].
Qed.

Lemma upd_snoc {A} (l : list A) x y : upd (l ++ [x]) (List.length l) y = l ++ [y].
Proof. induction l as [|a l IH]; cbn; [reflexivity|]. rewrite IH. reflexivity. Qed.

(** * Invariant of the construction *)
Section Construct.
  Variable q : query.

  Record binv (q1 : query) (rs : list role) (cf : nat -> list (list bytes)) (b : bctx) : Prop := {
    bi_st : b_st b = stack_of q1;
    bi_nd : NoDup (b_names b);
    bi_names : incl (b_names b) (query_names q);
    bi_in : Forall (fun r => incl (st_names (role_st q r)) (b_names b)) rs;
    bi_check : b_check b = map (role_st q) rs;
    bi_pats : b_pats b = map (fun r => flat_map (items_of (b_names b)) (role_st q r)) rs;
    bi_range : b_range b = map (role_rng q) rs;
    bi_trees : b_trees b = map (role_tree q) rs;
    bi_map : forall i j, nth_error rs i = Some (RP j) ->
               map_get (b_map b) (Z.of_nat i) = map Z.of_nat (seq (S i) (List.length (cf j))) /\
               forall t f, nth_error (cf j) t = Some f -> nth_error rs (S i + t) = Some (RC j f);
    bi_map0 : forall i, zlen rs <= i -> map_get (b_map b) i = []
  }.

  Lemma stack_names_incl q1 q2 : q = q1 ++ q2 -> incl (st_names (stack_of q1)) (query_names q).
  Proof.
    intros -> k Hk. unfold query_names. rewrite flat_map_app. apply in_or_app. left.
    unfold st_names, stack_of in Hk. apply in_flat_map in Hk. destruct Hk as (s & Hs & Hk).
    apply in_flat_map in Hs. destruct Hs as (st & Hst & Hs). apply in_flat_map. exists st. split; [exact Hst|].
    destruct st; cbn in Hs; repeat (destruct Hs as [<-|Hs]); try contradiction; cbn in Hk;
      repeat (destruct Hk as [<-|Hk]); try contradiction; left; reflexivity.
  Qed.

  Lemma binv_push q1 s rs cf b : is_path_step s = true -> binv q1 rs cf b ->
    exists x, se_of s = [x] /\ binv (q1 ++ [s]) rs cf (b_push b x) /\ b_lastgen (b_push b x) = Some false.
  Proof.
    intros Hs [H1 H2 H3 H4 H5 H6 H7 H8 H9 H10].
    destruct s; try discriminate; (eexists; split; [reflexivity|]; split; [|reflexivity]);
      (constructor; cbn; auto; rewrite stack_of_app, H1; reflexivity).
  Qed.

  (** One new expression. *)
  Lemma binv_create q1 rs cf b (r : role) flag st :
    b_st b = st -> role_st q r = st -> ~ In st (b_check b) -> incl (st_names st) (query_names q) ->
    binv q1 rs cf (mkB (stack_of q1) (b_lastgen b) (b_lastid b) (b_names b) (b_check b) (b_pats b)
                       (b_range b) (b_trees b) (b_map b) (b_handle b)) ->
    snd (b_create flag b) = false /\
    forall b', b' = fst (b_create flag b) ->
    b_st b' = st /\ b_lastgen b' = Some true /\
    b_lastid b' = (if flag then b_lastid b else Some (zlen (b_pats b'))) /\
    zlen (b_pats b') = zlen rs + 1 /\
    NoDup (b_names b') /\ incl (b_names b') (query_names q) /\
    Forall (fun r => incl (st_names (role_st q r)) (b_names b')) (rs ++ [r]) /\
    b_check b' = map (role_st q) (rs ++ [r]) /\
    b_pats b' = map (fun r => flat_map (items_of (b_names b')) (role_st q r)) (rs ++ [r]) /\
    b_range b' = map (role_rng q) rs ++ [(0, 0)] /\
    b_trees b' = map (role_tree q) rs ++ [None] /\
    b_map b' = b_map b /\ b_handle b' = b_handle b.
  Proof.
    intros Hst Hr Hnew Hincl [H1 H2 H3 H4 H5 H6 H7 H8 H9 H10].
    cbn [b_st b_names b_check b_pats b_range b_trees b_map] in *.
    unfold b_create.
    assert (existsb (st_eqb (b_st b)) (b_check b) = false) as He.
    { destruct (existsb _ _) eqn:E; [|reflexivity]. apply existsb_exists in E.
      destruct E as (x & Hx & E). apply st_eqb_true in E. subst x. rewrite Hst in Hx. contradiction. }
    rewrite He. cbn [fst snd]. split; [reflexivity|]. intros b' ->.
    cbn [b_st b_lastgen b_lastid b_names b_check b_pats b_range b_trees b_map b_handle].
    rewrite Hst. destruct (add_names_spec st (b_names b) H2) as (ex & E1 & E2 & E3 & E4). rewrite E1.
    assert (Hpats : b_pats b ++ [flat_map (items_of (b_names b ++ ex)) st]
                    = map (fun r => flat_map (items_of (b_names b ++ ex)) (role_st q r)) (rs ++ [r])).
    { rewrite map_app. cbn [map]. rewrite Hr. f_equal. rewrite H6. apply map_ext_in. intros r0 Hr0.
      rewrite items_app; [reflexivity|]. rewrite Forall_forall in H4. apply H4, Hr0. }
    split; [reflexivity|]. split; [reflexivity|].
    split; [destruct flag; reflexivity|].
    split; [rewrite Hpats; unfold zlen; rewrite map_length, app_length; cbn; lia|].
    split; [exact E2|]. split.
    { intros k Hk. apply in_app_or in Hk. destruct Hk as [Hk|Hk]; [apply H3, Hk|apply Hincl, E4, Hk]. }
    split.
    { apply Forall_app. split.
      - eapply Forall_impl; [|exact H4]. cbn. intros r0 Hi k Hk. apply in_or_app. left. apply Hi, Hk.
      - constructor; [|constructor]. rewrite Hr. exact E3. }
    split; [rewrite map_app, H5; cbn; rewrite Hr; reflexivity|].
    split; [exact Hpats|]. rewrite H7, H8. auto.
  Qed.

  (** ** Where the expressions of a prefix can lie *)
  Definition below (q1 : query) (st : list se) : Prop :=
    exists u f, st = u ++ map SeDot f /\ (List.length u <= List.length (stack_of q1))%nat.

  Lemma below_new q1 x (rs : list role) :
    (forall k, x <> SeDot k) -> Forall (fun r => below q1 (role_st q r)) rs ->
    ~ In (stack_of q1 ++ [x]) (map (role_st q) rs).
  Proof.
    intros Hx HF Hin. apply in_map_iff in Hin. destruct Hin as (r & Hr & Hin).
    rewrite Forall_forall in HF. destruct (HF r Hin) as (u & f & E & Hl). rewrite E in Hr.
    destruct (exists_last (l := f)) as (f' & k & ->) || idtac.
    - intros ->. rewrite app_nil_r in Hr. apply (f_equal (@List.length se)) in Hr.
      rewrite app_length in Hr. cbn in Hr. lia.
    - rewrite map_app, app_assoc in Hr. cbn in Hr. apply app_inj_tail in Hr. destruct Hr as [_ Hr].
      apply (Hx k). congruence.
  Qed.

  Lemma below_new_field q1 x (rs : list role) g :
    (forall k, x <> SeDot k) -> Forall (fun r => below q1 (role_st q r)) rs ->
    ~ In ((stack_of q1 ++ [x]) ++ map SeDot g) (map (role_st q) rs).
  Proof.
    intros Hx HF Hin. apply in_map_iff in Hin. destruct Hin as (r & Hr & Hin).
    rewrite Forall_forall in HF. destruct (HF r Hin) as (u & f & E & Hl). rewrite E in Hr.
    assert (nth_error (u ++ map SeDot f) (List.length (stack_of q1)) = Some x) as Hn.
    { rewrite Hr, <- app_assoc. cbn [app]. apply nth_pre. }
    rewrite nth_error_app2 in Hn by exact Hl. rewrite nth_error_map in Hn.
    destruct (nth_error f _) as [k|]; [|discriminate]. cbn in Hn. apply (Hx k). congruence.
  Qed.

  Lemma below_mono q1 s st : below q1 st -> below (q1 ++ [s]) st.
  Proof.
    intros (u & f & H1 & H2). exists u, f. split; [exact H1|]. rewrite stack_of_app, app_length. lia.
  Qed.

  (** ** Slices *)
  Lemma step_slice strict q1 lo hi q2 rs cf b : q = q1 ++ SSlice lo hi :: q2 ->
    binv q1 rs cf b -> Forall (fun r => below q1 (role_st q r)) rs ->
    exists b', construct_step strict b (SSlice lo hi) = Ok b' /\
      binv (q1 ++ [SSlice lo hi]) (rs ++ [RS (List.length q1)]) cf b' /\
      b_lastgen b' = Some true /\ b_lastid b' = Some (zlen (rs ++ [RS (List.length q1)])).
  Proof.
    intros Hq Hb Hbel. cbn [construct_step]. eexists. split; [reflexivity|].
    set (bg := match lo with Some x => x | None => INT_MIN end).
    set (en := match hi with Some x => x | None => INT_MAX end).
    set (s := SSlice lo hi) in *.
    assert (Hf1 : firstn (S (List.length q1)) q = q1 ++ [s]).
    { rewrite Hq. rewrite firstn_app. rewrite firstn_all2 by lia.
      replace (S (List.length q1) - List.length q1)%nat with 1%nat by lia. reflexivity. }
    assert (Hstk : stack_of (q1 ++ [s]) = stack_of q1 ++ [SeIndex bg en]).
    { rewrite stack_of_app. reflexivity. }
    destruct (binv_create q1 rs cf (b_push b (SeIndex bg en)) (RS (List.length q1)) false
                (stack_of q1 ++ [SeIndex bg en])) as (Hc1 & Hc2).
    { cbn. rewrite (bi_st _ _ _ _ Hb). reflexivity. }
    { cbn [role_st]. rewrite Hf1. exact Hstk. }
    { cbn [b_push b_check]. rewrite (bi_check _ _ _ _ Hb). apply below_new; [discriminate|exact Hbel]. }
    { rewrite <- Hstk. apply (stack_names_incl (q1 ++ [s]) q2). rewrite Hq, <- app_assoc. reflexivity. }
    { destruct Hb. constructor; auto. }
    set (b1 := fst (b_create false (b_push b (SeIndex bg en)))) in *.
    destruct (Hc2 b1 eq_refl) as (C1 & C2 & C3 & C4 & C5 & C6 & C7 & C8 & C9 & C10 & C11 & C12 & C13).
    split; [|split].
    - constructor; unfold set_range; cbn [b_st b_names b_check b_pats b_range b_trees b_map]; auto.
      + rewrite C1, Hstk. reflexivity.
      + rewrite C10, C4. rewrite map_app. cbn [map role_rng].
        replace (nth_error q (List.length q1)) with (Some s) by (rewrite Hq, nth_pre; reflexivity).
        unfold s. replace (Z.to_nat (zlen rs + 1 - 1)) with (List.length (map (role_rng q) rs)).
        * rewrite upd_snoc. reflexivity.
        * rewrite map_length. unfold zlen. lia.
      + rewrite C11, map_app. reflexivity.
      + intros i j Hi. rewrite C12. cbn [b_push b_map].
        destruct (Nat.lt_ge_cases i (List.length rs)) as [Hl|Hl].
        * rewrite nth_error_app1 in Hi by exact Hl. destruct (bi_map _ _ _ _ Hb i j Hi) as [G1 G2].
          split; [exact G1|]. intros t f Ht. specialize (G2 t f Ht).
          rewrite nth_error_app1; [exact G2|]. apply nth_error_Some. congruence.
        * rewrite nth_error_app2 in Hi by exact Hl. destruct (i - List.length rs)%nat as [|[|?]]; discriminate.
      + intros i Hi. rewrite C12. cbn [b_push b_map]. apply (bi_map0 _ _ _ _ Hb).
        rewrite zlen_app, zlen_cons, zlen_nil in Hi. lia.
    - cbn. exact C2.
    - unfold set_range. cbn [b_lastid]. rewrite C3, C4. rewrite zlen_app, zlen_cons, zlen_nil. reflexivity.
  Qed.

  (** ** Filters *)
  Lemma push_fields b : forall p b0, b_st b = b_st b0 ->
    fold_left (fun b k => b_push b (SeDot k)) p b =
    mkB (b_st b ++ map SeDot p) (match p with [] => b_lastgen b | _ => Some false end) (b_lastid b)
        (b_names b) (b_check b) (b_pats b) (b_range b) (b_trees b) (b_map b) (b_handle b).
  Proof.
    intros p b0 _. revert b. induction p as [|k p IH]; intros b; cbn [fold_left map].
    - rewrite app_nil_r. destruct b; reflexivity.
    - rewrite IH. cbn [b_push b_st b_lastgen b_lastid b_names b_check b_pats b_range b_trees b_map b_handle].
      rewrite <- app_assoc. cbn [app]. destruct p; reflexivity.
  Qed.

  Lemma map_dot_inj : forall f g, map SeDot f = map SeDot g -> f = g.
  Proof.
    induction f as [|k f IH]; intros [|k' g] H; cbn in H; try discriminate; [reflexivity|].
    injection H as -> H. f_equal. apply IH, H.
  Qed.

  Lemma construct_filter_fold e : forall b, forallb (fun f => nonempty f) (fields_in e) = true ->
    construct_filter b e = fold_left filter_var (fields_in e) b.
  Proof.
    induction e as [p|n l|s|e IH|op e1 IH1 e2 IH2]; intros b H; cbn [construct_filter fields_in fold_left] in *;
      try reflexivity.
    - destruct p; [discriminate|reflexivity].
    - apply IH, H.
    - rewrite forallb_app in H. apply andb_true_iff in H. destruct H as [Ha Hb].
      rewrite fold_left_app, IH1 by exact Ha. apply IH2, Hb.
  Qed.

  Definition cf_set (cf : nat -> list (list bytes)) (j : nat) (fs : list (list bytes)) : nat -> list (list bytes) :=
    fun j' => if Nat.eqb j' j then fs else cf j'.

  Lemma filter_var_ok q1 e q2 rs cf done f b :
    q = q1 ++ SFilter e :: q2 ->
    let j := List.length q1 in
    let rs' := (rs ++ [RP j]) ++ map (RC j) done in
    In f (fields_in e) -> f <> [] ->
    Forall (fun r => below q1 (role_st q r)) rs ->
    (forall i, nth_error rs i <> Some (RP j)) ->
    b_handle b = zlen rs ->
    binv (q1 ++ [SFilter e]) rs' (cf_set cf j done) b ->
    let done' := add_new done f in
    exists b', filter_var b f = b' /\
      b_handle b' = zlen rs /\
      binv (q1 ++ [SFilter e]) ((rs ++ [RP j]) ++ map (RC j) done') (cf_set cf j done') b'.
  Proof.
    intros Hq j rs' Hfe Hf0 Hbel Hnoj Hh Hb done'.
    assert (Hf1 : firstn (S (List.length q1)) q = q1 ++ [SFilter e]).
    { rewrite Hq. rewrite firstn_app. rewrite firstn_all2 by lia.
      replace (S (List.length q1) - List.length q1)%nat with 1%nat by lia. reflexivity. }
    assert (Hstk : stack_of (q1 ++ [SFilter e]) = stack_of q1 ++ [SeArray]).
    { rewrite stack_of_app. reflexivity. }
    eexists. split; [reflexivity|]. unfold filter_var. rewrite (push_fields b f b eq_refl).
    set (b1 := mkB _ _ _ _ _ _ _ _ _ _).
    assert (Hst1 : b_st b1 = (stack_of q1 ++ [SeArray]) ++ map SeDot f).
    { unfold b1. cbn [b_st]. rewrite (bi_st _ _ _ _ Hb), Hstk. reflexivity. }
    assert (Hpop : forall bb, b_st bb = b_st b1 ->
              firstn (List.length (b_st bb) - List.length f) (b_st bb) = stack_of (q1 ++ [SFilter e])).
    { intros bb ->. rewrite Hst1, Hstk, app_length, map_length.
      rewrite firstn_app. rewrite firstn_all2 by lia.
      replace (_ - _ - _)%nat with 0%nat by lia. cbn [firstn]. apply app_nil_r. }
    unfold done', add_new in *. destruct (existsb (fbeq f) done) eqn:Ein.
    - (* known field *)
      assert (existsb (st_eqb (b_st b1)) (b_check b1) = true) as He.
      { apply existsb_exists. exists (b_st b1). split; [|apply st_eqb_true; reflexivity].
        apply existsb_exists in Ein. destruct Ein as (g & Hg & Eg). apply fbeq_true in Eg. subst g.
        unfold b1 at 2. cbn [b_check]. rewrite (bi_check _ _ _ _ Hb). unfold rs'. apply in_map_iff.
        exists (RC j f). split.
        - cbn [role_st]. unfold j. rewrite Hf1, Hstk, Hst1. reflexivity.
        - apply in_or_app. right. apply in_map, Hg. }
      unfold b_create. rewrite He. split; [exact Hh|].
      destruct Hb. constructor; cbn [b_pop b1 b_st b_names b_check b_pats b_range b_trees b_map]; auto.
      apply (Hpop b1 eq_refl).
    - (* new field *)
      assert (Hnew : ~ In (b_st b1) (b_check b1)).
      { unfold b1 at 2. cbn [b_check]. rewrite (bi_check _ _ _ _ Hb), Hst1. unfold rs'.
        rewrite !map_app. intros Hin. apply in_app_or in Hin. destruct Hin as [Hin|Hin].
        - apply in_app_or in Hin. destruct Hin as [Hin|Hin].
          + revert Hin. apply below_new_field; [discriminate|exact Hbel].
          + cbn [map role_st] in Hin. unfold j in Hin. rewrite Hf1, Hstk in Hin.
            destruct Hin as [Hin|[]]. rewrite <- (app_nil_r (stack_of q1 ++ [SeArray])) in Hin at 1.
            apply app_inv_head in Hin. symmetry in Hin. apply map_eq_nil in Hin.
            contradiction.
        - apply in_map_iff in Hin. destruct Hin as (r & Hr & Hin). apply in_map_iff in Hin.
          destruct Hin as (g & <- & Hg). cbn [role_st] in Hr. unfold j in Hr. rewrite Hf1, Hstk in Hr.
          apply app_inv_head in Hr. apply map_dot_inj in Hr. subst g.
          assert (existsb (fbeq f) done = true); [|congruence]. apply existsb_exists. exists f.
          split; [exact Hg|]. apply fbeq_true. reflexivity. }
      destruct (binv_create (q1 ++ [SFilter e]) rs' (cf_set cf j done) b1 (RC j f) true (b_st b1) eq_refl) as (Hc1 & Hc2).
      { cbn [role_st]. unfold j. rewrite Hf1, Hstk, Hst1. reflexivity. }
      { exact Hnew. }
      { rewrite Hst1, <- Hstk. unfold st_names. rewrite flat_map_app. intros k Hk. apply in_app_or in Hk.
        destruct Hk as [Hk|Hk].
        - apply (stack_names_incl (q1 ++ [SFilter e]) q2); [rewrite Hq, <- app_assoc; reflexivity|exact Hk].
        - assert (In k f) as Hkf.
          { clear - Hk. induction f as [|x f IH]; cbn in *; [contradiction|]. destruct Hk as [<-|Hk]; [left; reflexivity|right; apply IH, Hk]. }
          rewrite Hq. unfold query_names. rewrite flat_map_app. apply in_or_app. right. cbn [flat_map].
          apply in_or_app. left. cbn [step_names]. apply in_concat. eauto. }
      { destruct Hb. constructor; cbn [b1 b_st b_names b_check b_pats b_range b_trees b_map]; auto. }
      destruct (b_create true b1) as [b2 ign] eqn:Ec. cbn [fst snd] in Hc1, Hc2. subst ign.
      destruct (Hc2 b2 eq_refl) as (C1 & C2 & C3 & C4 & C5 & C6 & C7 & C8 & C9 & C10 & C11 & C12 & C13).
      assert (Hlen : zlen rs' = zlen rs + 1 + zlen done).
      { unfold rs'. rewrite !zlen_app, zlen_cons, zlen_nil. unfold zlen at 2. rewrite map_length. unfold zlen. lia. }
      assert (Hrs : (rs ++ [RP j]) ++ map (RC j) (done ++ [f]) = rs' ++ [RC j f]).
      { unfold rs'. rewrite map_app, !app_assoc. reflexivity. }
      rewrite Hrs. split; [cbn; rewrite C13; exact Hh|].
      constructor; cbn [b_pop set_tree set_map b_st b_names b_check b_pats b_range b_trees b_map]; auto.
      + rewrite C10, map_app. reflexivity.
      + rewrite C11, map_app. cbn [map role_tree]. rewrite C4.
        replace (Z.to_nat (zlen rs' + 1 - 1)) with (List.length (map (role_tree q) rs')).
        * rewrite upd_snoc. reflexivity.
        * rewrite map_length. unfold zlen. lia.
      + intros i j' Hi. rewrite C12, C13, map_get_push. unfold b1. cbn [b_map b_handle]. rewrite Hh.
        assert (Hi' : nth_error rs' i = Some (RP j')).
        { destruct (Nat.lt_ge_cases i (List.length rs')) as [Hl|Hl].
          - rewrite nth_error_app1 in Hi by exact Hl. exact Hi.
          - rewrite nth_error_app2 in Hi by exact Hl. destruct (i - List.length rs')%nat as [|[|?]]; discriminate. }
        destruct (bi_map _ _ _ _ Hb i j' Hi') as [G1 G2]. unfold cf_set in *.
        destruct (Nat.eqb_spec j' j) as [->|Hj].
        * assert (i = List.length rs) as ->.
          { unfold rs' in Hi'. rewrite <- app_assoc in Hi'. destruct (Nat.lt_ge_cases i (List.length rs)) as [Hl|Hl].
            - rewrite nth_error_app1 in Hi' by exact Hl. exfalso. exact (Hnoj i Hi').
            - rewrite nth_error_app2 in Hi' by exact Hl. destruct (i - List.length rs)%nat as [|n] eqn:En; [lia|].
              cbn in Hi'. rewrite nth_error_map in Hi'. destruct (nth_error done n); discriminate. }
          replace (Z.of_nat (List.length rs) =? zlen rs) with true by (unfold zlen; lia).
          split.
          -- unfold zlen at 1. rewrite G1, C4, Hlen. rewrite app_length. cbn [List.length].
             rewrite seq_app, map_app. cbn [seq map]. f_equal. f_equal. unfold zlen. lia.
          -- intros t g Ht. destruct (Nat.lt_ge_cases t (List.length done)) as [Hl|Hl].
             ++ rewrite nth_error_app1 in Ht by exact Hl. specialize (G2 t g Ht).
                rewrite nth_error_app1; [exact G2|]. apply nth_error_Some. congruence.
             ++ rewrite nth_error_app2 in Ht by exact Hl.
                destruct (t - List.length done)%nat as [|[|?]] eqn:Et; try discriminate.
                injection Ht as <-. rewrite nth_error_app2; unfold zlen in Hlen; [|lia].
                replace (S (List.length rs) + t - List.length rs')%nat with 0%nat by lia. reflexivity.
        * replace (Z.of_nat i =? zlen rs) with false.
          -- split; [exact G1|]. intros t g Ht. specialize (G2 t g Ht).
             rewrite nth_error_app1; [exact G2|]. apply nth_error_Some. congruence.
          -- symmetry. apply Z.eqb_neq. unfold zlen. intros E. assert (i = List.length rs) by lia. subst i.
             unfold rs' in Hi'. rewrite <- app_assoc, nth_error_app2 in Hi' by lia. rewrite Nat.sub_diag in Hi'.
             cbn in Hi'. injection Hi' as <-. contradiction.
      + intros i Hi. rewrite C12, C13, map_get_push. unfold b1. cbn [b_map b_handle]. rewrite Hh.
        rewrite zlen_app, zlen_cons, zlen_nil in Hi. pose proof (zlen_nonneg done).
        replace (i =? zlen rs) with false by lia. apply (bi_map0 _ _ _ _ Hb). lia.
  Qed.

  Lemma filter_vars_ok q1 e q2 rs cf :
    q = q1 ++ SFilter e :: q2 ->
    let j := List.length q1 in
    Forall (fun r => below q1 (role_st q r)) rs ->
    (forall i, nth_error rs i <> Some (RP j)) ->
    forall fs done b, incl fs (fields_in e) -> (forall f, In f fs -> f <> []) ->
    b_handle b = zlen rs ->
    binv (q1 ++ [SFilter e]) ((rs ++ [RP j]) ++ map (RC j) done) (cf_set cf j done) b ->
    let done' := fold_left add_new fs done in
    binv (q1 ++ [SFilter e]) ((rs ++ [RP j]) ++ map (RC j) done') (cf_set cf j done') (fold_left filter_var fs b).
  Proof.
    intros Hq j Hbel Hnoj. induction fs as [|f fs IH]; intros done b Hi H0 Hh Hb; cbn [fold_left]; [exact Hb|].
    destruct (filter_var_ok q1 e q2 rs cf done f b Hq) as (b' & E & Hh' & Hb'); auto.
    - apply Hi. left. reflexivity.
    - apply H0. left. reflexivity.
    - rewrite E. apply IH; auto.
      + intros x Hx. apply Hi. right. exact Hx.
      + intros x Hx. apply H0. right. exact Hx.
  Qed.

  Lemma step_filter strict q1 e q2 rs cf b : q = q1 ++ SFilter e :: q2 ->
    (forall f, In f (fields_in e) -> f <> [] /\ (strict = true -> (List.length f <= 1)%nat)) ->
    let j := List.length q1 in
    binv q1 rs cf b -> Forall (fun r => below q1 (role_st q r)) rs ->
    (forall i, nth_error rs i <> Some (RP j)) ->
    exists b', construct_step strict b (SFilter e) = Ok b' /\
      binv (q1 ++ [SFilter e]) (rs ++ RP j :: map (RC j) (nub_fields e)) (cf_set cf j (nub_fields e)) b'.
  Proof.
    intros Hq Hfs j Hb Hbel Hnoj. cbn [construct_step].
    assert (modify_reference strict e = Ok tt) as ->.
    { unfold modify_reference. destruct strict; [|reflexivity]. cbn [andb].
      destruct (existsb _ _) eqn:E; [|reflexivity]. apply existsb_exists in E. destruct E as (f & Hf & El).
      rewrite fields_of_in in Hf. destruct (Hfs f Hf) as [_ Hl]. specialize (Hl eq_refl).
      apply Nat.leb_le in El. lia. }
    cbn [bind].
    assert (Hf1 : firstn (S (List.length q1)) q = q1 ++ [SFilter e]).
    { rewrite Hq. rewrite firstn_app. rewrite firstn_all2 by lia.
      replace (S (List.length q1) - List.length q1)%nat with 1%nat by lia. reflexivity. }
    assert (Hstk : stack_of (q1 ++ [SFilter e]) = stack_of q1 ++ [SeArray]).
    { rewrite stack_of_app. reflexivity. }
    destruct (binv_create q1 rs cf (b_push b SeArray) (RP j) false (stack_of q1 ++ [SeArray])) as (Hc1 & Hc2).
    { cbn. rewrite (bi_st _ _ _ _ Hb). reflexivity. }
    { cbn [role_st]. unfold j. rewrite Hf1. exact Hstk. }
    { cbn [b_push b_check]. rewrite (bi_check _ _ _ _ Hb). apply below_new; [discriminate|exact Hbel]. }
    { rewrite <- Hstk. apply (stack_names_incl (q1 ++ [SFilter e]) q2). rewrite Hq, <- app_assoc. reflexivity. }
    { destruct Hb. constructor; auto. }
    set (b1 := fst (b_create false (b_push b SeArray))) in *.
    destruct (Hc2 b1 eq_refl) as (C1 & C2 & C3 & C4 & C5 & C6 & C7 & C8 & C9 & C10 & C11 & C12 & C13).
    set (h := zlen (b_pats b1) - 1). assert (Hh : h = zlen rs) by (unfold h; lia).
    eexists. split; [reflexivity|].
    rewrite construct_filter_fold.
    2:{ apply forallb_forall. intros f Hf. destruct (Hfs f Hf) as [H _]. destruct f; [contradiction|reflexivity]. }
    set (b4 := set_tree _ _ _).
    pose proof (filter_vars_ok q1 e q2 rs cf Hq Hbel Hnoj (fields_in e) [] b4) as Hv.
    cbn zeta in Hv. fold j in Hv. cbn [map] in Hv. rewrite app_nil_r in Hv.
    replace (rs ++ RP j :: map (RC j) (nub_fields e)) with ((rs ++ [RP j]) ++ map (RC j) (nub_fields e))
      by (rewrite <- app_assoc; reflexivity).
    apply Hv.
    - apply incl_refl.
    - intros f Hf. apply Hfs, Hf.
    - unfold b4. cbn. exact Hh.
    - constructor; unfold b4; cbn [set_tree set_map set_handle b_st b_names b_check b_pats b_range b_trees b_map]; auto.
      + rewrite C1, Hstk. reflexivity.
      + rewrite C10, map_app. reflexivity.
      + rewrite C11, map_app. cbn [map role_tree]. unfold j.
        replace (nth_error q (List.length q1)) with (Some (SFilter e)) by (rewrite Hq, nth_pre; reflexivity).
        replace (Z.to_nat h) with (List.length (map (role_tree q) rs)).
        * rewrite upd_snoc. reflexivity.
        * rewrite map_length, Hh. unfold zlen. lia.
      + intros i j' Hi. rewrite C12, map_get_clear. cbn [b_push b_map]. unfold cf_set.
        destruct (Nat.lt_ge_cases i (List.length rs)) as [Hl|Hl].
        * rewrite nth_error_app1 in Hi by exact Hl. destruct (bi_map _ _ _ _ Hb i j' Hi) as [G1 G2].
          replace (Z.of_nat i =? h) with false by (symmetry; apply Z.eqb_neq; rewrite Hh; unfold zlen; lia).
          destruct (Nat.eqb_spec j' j) as [->|Hj]; [exfalso; exact (Hnoj i Hi)|].
          split; [exact G1|]. intros t f Ht. specialize (G2 t f Ht).
          rewrite nth_error_app1; [exact G2|]. apply nth_error_Some. congruence.
        * rewrite nth_error_app2 in Hi by exact Hl.
          destruct (i - List.length rs)%nat as [|[|?]] eqn:Ei; try discriminate. injection Hi as <-.
          rewrite Nat.eqb_refl. cbn [List.length seq map].
          replace (Z.of_nat i =? h) with true by (symmetry; apply Z.eqb_eq; rewrite Hh; unfold zlen; lia).
          split; [reflexivity|]. intros [|t] f Ht; discriminate.
      + intros i Hi. rewrite C12, map_get_clear. cbn [b_push b_map].
        rewrite zlen_app, zlen_cons, zlen_nil in Hi. replace (i =? h) with false by lia.
        apply (bi_map0 _ _ _ _ Hb). lia.
  Qed.
End Construct.

(** * The whole query *)
Lemma roles_from_app : forall q1 q2 j,
  roles_from j (q1 ++ q2) = roles_from j q1 ++ roles_from (j + List.length q1) q2.
Proof.
  induction q1 as [|s q1 IH]; intros q2 j; cbn [app roles_from List.length].
  - rewrite Nat.add_0_r. reflexivity.
  - rewrite IH, <- app_assoc. do 3 f_equal. lia.
Qed.

Lemma step_roles_in j s r : In r (step_roles j s) ->
  match r with
  | RS i => i = j /\ exists lo hi, s = SSlice lo hi
  | RP i => i = j /\ exists e, s = SFilter e
  | RC i f => i = j /\ exists e, s = SFilter e /\ In f (nub_fields e)
  | RO => False
  end.
Proof.
  destruct s; cbn [step_roles]; try contradiction.
  - intros [<-|[]]. eauto.
  - intros [<-|H]; [eauto|]. apply in_map_iff in H. destruct H as (f & <- & Hf). eauto.
Qed.

Lemma roles_from_in : forall q j r, In r (roles_from j q) ->
  match r with
  | RS i => exists n lo hi, i = (j + n)%nat /\ nth_error q n = Some (SSlice lo hi)
  | RP i => exists n e, i = (j + n)%nat /\ nth_error q n = Some (SFilter e)
  | RC i f => exists n e, i = (j + n)%nat /\ nth_error q n = Some (SFilter e) /\ In f (nub_fields e)
  | RO => False
  end.
Proof.
  induction q as [|s q IH]; intros j r H; cbn [roles_from] in H; [contradiction|].
  apply in_app_or in H. destruct H as [H|H].
  - apply step_roles_in in H. destruct r as [i|i|i f|].
    + destruct H as (-> & lo & hi & ->). exists O, lo, hi. rewrite Nat.add_0_r. auto.
    + destruct H as (-> & e & ->). exists O, e. rewrite Nat.add_0_r. auto.
    + destruct H as (-> & e & -> & Hf). exists O, e. rewrite Nat.add_0_r. auto.
    + contradiction.
  - apply IH in H. destruct r as [i|i|i f|].
    + destruct H as (n & lo & hi & -> & Hn). exists (S n), lo, hi. split; [lia|exact Hn].
    + destruct H as (n & e & -> & Hn). exists (S n), e. split; [lia|exact Hn].
    + destruct H as (n & e & -> & Hn & Hf). exists (S n), e. split; [lia|auto].
    + contradiction.
Qed.

Lemma add_new_in : forall fs l f, In f (fold_left add_new fs l) <-> In f l \/ In f fs.
Proof.
  induction fs as [|g fs IH]; intros l f; cbn [fold_left]; [cbn; tauto|].
  rewrite IH. unfold add_new. destruct (existsb (fbeq g) l) eqn:E; cbn [In].
  - apply existsb_exists in E. destruct E as (h & Hh & E). apply fbeq_true in E. subst h.
    split; [tauto|]. intros [H|[<-|H]]; auto.
  - rewrite in_app_iff. cbn. tauto.
Qed.
Lemma nub_in e f : In f (nub_fields e) <-> In f (fields_in e).
Proof. unfold nub_fields. rewrite add_new_in. cbn. tauto. Qed.

Lemma add_new_nodup : forall fs l, NoDup l -> NoDup (fold_left add_new fs l).
Proof.
  induction fs as [|g fs IH]; intros l Hl; cbn [fold_left]; [exact Hl|]. apply IH.
  unfold add_new. destruct (existsb (fbeq g) l) eqn:E; [exact Hl|]. apply NoDup_snoc; [exact Hl|].
  intros Hin. assert (existsb (fbeq g) l = true); [|congruence]. apply existsb_exists. exists g.
  split; [exact Hin|]. apply fbeq_true. reflexivity.
Qed.
Lemma nub_nodup e : NoDup (nub_fields e).
Proof. apply add_new_nodup. constructor. Qed.

Definition the_cf (q : query) (j : nat) : list (list bytes) :=
  match nth_error q j with Some (SFilter e) => nub_fields e | _ => [] end.

Lemma binv_ext q q1 rs cf cf' b : (forall i j, nth_error rs i = Some (RP j) -> cf j = cf' j) ->
  binv q q1 rs cf b -> binv q q1 rs cf' b.
Proof.
  intros He [H1 H2 H3 H4 H5 H6 H7 H8 H9 H10]. constructor; auto.
  intros i j Hi. rewrite <- (He i j Hi). apply H9, Hi.
Qed.

(** Every step but an index pushes one element. *)
Definition no_index (q : query) : Prop := forall s, In s q -> se_of s <> [].

Lemma firstn_snoc {A} (l : list A) n x : nth_error l n = Some x -> firstn (S n) l = firstn n l ++ [x].
Proof.
  revert n. induction l as [|a l IH]; intros [|n] H; cbn in H; try discriminate.
  - injection H as ->. reflexivity.
  - cbn [firstn app]. f_equal. apply IH, H.
Qed.

Lemma stack_len q : no_index q -> List.length (stack_of q) = List.length q.
Proof.
  induction q as [|s q IH]; intros H; [reflexivity|]. unfold stack_of in *. cbn [flat_map].
  rewrite app_length, IH by (intros s' Hs'; apply H; right; exact Hs').
  pose proof (H s (or_introl eq_refl)) as Hs. destruct s; cbn in *; congruence.
Qed.

Definition fields_fine (strict : bool) (q : query) : Prop :=
  forall f, In f (query_fields q) -> f <> [] /\ (strict = true -> (List.length f <= 1)%nat).

Lemma last_step_snoc q s : last_step (q ++ [s]) = Some s.
Proof. induction q as [|x q IH]; [reflexivity|]. cbn. destruct (q ++ [s]) eqn:E; [destruct q; discriminate|exact IH]. Qed.

Lemma last_step_some q s : last_step q = Some s -> exists q', q = q' ++ [s].
Proof.
  intros H. destruct q as [|x q] using rev_ind; [discriminate|].
  rewrite last_step_snoc in H. injection H as ->. eauto.
Qed.

Lemma construct_ok strict q : no_index q -> fields_fine strict q ->
  forall q1 q2, q = q1 ++ q2 ->
  exists b, foldM (construct_step strict) q1 init_bctx = Ok b /\
    binv q q1 (roles_from 0 q1) (the_cf q) b /\
    match last_step q1 with
    | None => b_lastgen b = None
    | Some (SSlice _ _) => b_lastgen b = Some true /\ b_lastid b = Some (zlen (roles_from 0 q1))
    | Some (SFilter _) => True
    | Some _ => b_lastgen b = Some false
    end.
Proof.
  intros Hni Hff. induction q1 as [|s q1 IH] using rev_ind; intros q2 Hq.
  - exists init_bctx. cbn. split; [reflexivity|]. split; [|reflexivity].
    constructor; cbn; auto; try constructor.
    + intros x [].
    + destruct i; discriminate.
    + intros t f Ht. destruct i; discriminate.
  - rewrite <- app_assoc in Hq. cbn [app] in Hq. destruct (IH _ Hq) as (b & Hrun & Hb & _).
    assert (Hbel : Forall (fun r => below q1 (role_st q r)) (roles_from 0 q1)).
    { apply Forall_forall. intros r Hr. apply roles_from_in in Hr.
      assert (Hl : forall n x, nth_error q1 n = Some x ->
                (List.length (stack_of (firstn (S n) q)) <= List.length (stack_of q1))%nat).
      { intros n x Hn. assert (n < List.length q1)%nat by (apply nth_error_Some; congruence).
        rewrite Hq. rewrite firstn_app. replace (S n - List.length q1)%nat with 0%nat by lia.
        rewrite app_nil_r. rewrite <- (firstn_skipn (S n) q1) at 2. rewrite stack_of_app, app_length. lia. }
      destruct r as [i|i|i f|]; cbn [role_st]; [| | |contradiction].
      - destruct Hr as (n & lo & hi & -> & Hn). exists (stack_of (firstn (S n) q)), [].
        rewrite app_nil_r. split; [reflexivity|]. eapply Hl; eauto.
      - destruct Hr as (n & e & -> & Hn). exists (stack_of (firstn (S n) q)), [].
        rewrite app_nil_r. split; [reflexivity|]. eapply Hl; eauto.
      - destruct Hr as (n & e & -> & Hn & _). exists (stack_of (firstn (S n) q)), f.
        split; [reflexivity|]. eapply Hl; eauto. }
    assert (Hnoj : forall i, nth_error (roles_from 0 q1) i <> Some (RP (List.length q1))).
    { intros i Hi. apply nth_error_In, roles_from_in in Hi. destruct Hi as (n & e & En & Hn).
      assert (n < List.length q1)%nat by (apply nth_error_Some; congruence). lia. }
    rewrite foldM_app, Hrun. cbn [bind foldM]. rewrite roles_from_app, last_step_snoc.
    cbn [roles_from Nat.add]. rewrite app_nil_r.
    assert (Hs : In s q) by (rewrite Hq; apply in_or_app; right; left; reflexivity).
    destruct s as [k| |k| | |lo hi|n|e]; cbn [step_roles]; rewrite ?app_nil_r.
    1-5: (match type of Hs with In ?s0 _ =>
            destruct (binv_push q q1 s0 _ _ b eq_refl Hb) as (x & Ex & Hb' & Hg') end;
          cbn [se_of] in Ex; injection Ex as <-; cbn [construct_step bind]; eexists; split; [reflexivity|]; split; [exact Hb'|exact Hg']).
    + destruct (step_slice q strict q1 lo hi q2 _ _ b Hq Hb Hbel) as (b' & E & Hb' & G1 & G2).
      rewrite E. cbn [bind]. exists b'. auto.
    + exfalso. apply (Hni _ Hs). reflexivity.
    + assert (Hfe : forall f, In f (fields_in e) -> f <> [] /\ (strict = true -> (List.length f <= 1)%nat)).
      { intros f Hf. apply Hff. unfold query_fields. apply in_flat_map. exists (SFilter e). split; [exact Hs|exact Hf]. }
      destruct (step_filter q strict q1 e q2 _ _ b Hq Hfe Hb Hbel Hnoj) as (b' & E & Hb').
      rewrite E. cbn [bind]. exists b'. split; [reflexivity|]. split; [|exact I].
      eapply binv_ext; [|exact Hb']. intros i j _. unfold cf_set.
      destruct (Nat.eqb_spec j (List.length q1)) as [->|]; [|reflexivity].
      unfold the_cf. rewrite Hq, nth_pre. reflexivity.
Qed.

(** The steps behind a filter. *)
Lemma keys_lsel : forall f q, no_index q -> lsel q (map LKey f) = st_match (stack_of q) (map LKey f).
Proof.
  induction f as [|k f IH]; intros q Hi.
  - destruct q as [|s q]; [reflexivity|]. pose proof (Hi s (or_introl eq_refl)). destruct s; cbn in *; congruence.
  - destruct q as [|s q]; [reflexivity|]. cbn [map]. pose proof (Hi s (or_introl eq_refl)).
    assert (Hq : lsel q (map LKey f) = st_match (stack_of q) (map LKey f)).
    { apply IH. intros s' Hs'. apply Hi. right. exact Hs'. }
    pose proof (IH (s :: q) Hi) as Hsq. cbn [lsel stack_of flat_map] in *.
    destruct s; try contradiction; cbn [se_of app] in *; cbn [st_match]; try congruence; rewrite ?Hq, ?Hsq; reflexivity.
Qed.
Lemma untested_at : forall q j e f, untested q = true -> nth_error q j = Some (SFilter e) -> In f (fields_in e) ->
  lsel (skipn (S j) q) (map LKey f) = false.
Proof.
  induction q as [|s q IH]; intros j e f H Hj Hf; [destruct j; discriminate|].
  destruct j as [|j]; cbn [nth_error skipn] in *.
  - injection Hj as ->. cbn [untested] in H. apply andb_true_iff in H. destruct H as [H _].
    rewrite forallb_forall in H. apply negb_true_iff, H, Hf.
  - apply (IH j e f); [|exact Hj|exact Hf]. cbn [untested] in H. destruct s; try exact H. apply andb_true_iff in H. apply H.
Qed.
Lemma untested_stack q j e f : no_index q -> untested q = true -> nth_error q j = Some (SFilter e) -> In f (fields_in e) ->
  st_match (stack_of (skipn (S j) q)) (map LKey f) = false.
Proof.
  intros Hni Hu Hj Hf. rewrite <- keys_lsel; [eapply untested_at; eauto|].
  intros s Hs. apply Hni. rewrite <- (firstn_skipn (S j) q). apply in_or_app. right. exact Hs.
Qed.
Lemma no_fields_untested : forall q, query_fields q = [] -> untested q = true.
Proof.
  induction q as [|s q IH]; intros H; [reflexivity|]. unfold query_fields in H. cbn [flat_map] in H.
  apply app_eq_nil in H. destruct H as [H1 H2]. cbn [untested]. destruct s; try (apply IH, H2).
  cbn [step_fields] in H1. rewrite H1. cbn [forallb andb]. apply IH, H2.
Qed.

(** The last path expression is new. *)
Lemma output_new q : no_index q -> end_ok q = true -> ends_in_slice q = false ->
  (forall f, In f (query_fields q) -> f <> []) ->
  ~ In (stack_of q) (map (role_st q) (roles_from 0 q)).
Proof.
  intros Hni He Hs Hf Hin. apply in_map_iff in Hin. destruct Hin as (r & Hr & Hin).
  unfold end_ok in He. apply andb_true_iff in He. destruct He as [He Hun].
  apply roles_from_in in Hin. unfold ends_well, ends_in_slice in *.
  destruct (last_step q) as [sl|] eqn:El; [|discriminate].
  destruct (last_step_some _ _ El) as (q' & Hq).
  assert (Hlen : forall n x, nth_error q n = Some x -> x <> sl -> (S n < List.length q)%nat).
  { intros n x Hn Hx. assert (n < List.length q)%nat by (apply nth_error_Some; congruence).
    destruct (Nat.eq_dec (S n) (List.length q)) as [E|]; [|lia]. exfalso. apply Hx.
    rewrite Hq, app_length in E. cbn in E. rewrite Hq in Hn. replace n with (List.length q') in Hn by lia.
    rewrite nth_pre in Hn. congruence. }
  assert (Hshort : forall n x, nth_error q n = Some x -> x <> sl ->
            List.length (stack_of (firstn (S n) q)) <> List.length (stack_of q)).
  { intros n x Hn Hx. specialize (Hlen n x Hn Hx). rewrite !stack_len; auto.
    - rewrite firstn_length. lia.
    - intros s Hs'. apply Hni. rewrite <- (firstn_skipn (S n) q). apply in_or_app. left. exact Hs'. }
  destruct r as [i|i|i f|]; cbn [role_st] in Hr; [| | |contradiction].
  - destruct Hin as (n & lo & hi & -> & Hn). apply (Hshort n _ Hn); [intros <-; discriminate|].
    cbn [Nat.add] in Hr. rewrite Hr. reflexivity.
  - destruct Hin as (n & e & -> & Hn). apply (Hshort n _ Hn); [intros <-; discriminate|].
    cbn [Nat.add] in Hr. rewrite Hr. reflexivity.
  - destruct Hin as (n & e & -> & Hn & Hfe). apply nub_in in Hfe. change (0 + n)%nat with n in Hr.
    pose proof (untested_stack q n e f Hni Hun Hn Hfe) as Hno.
    assert (E : stack_of q = stack_of (firstn (S n) q) ++ stack_of (skipn (S n) q)) by (rewrite <- stack_of_app, firstn_skipn; reflexivity).
    rewrite E in Hr. apply app_inv_head in Hr. rewrite <- Hr in Hno.
    clear - Hno. induction f as [|k f IH]; [discriminate|]. cbn [map st_match] in Hno. rewrite beq_refl in Hno. apply IH, Hno.
Qed.

Theorem finish_ok strict q : no_index q -> fields_fine strict q -> end_ok q = true ->
  exists b, (b0 <- construct_dfa strict q ;; finish_ctx b0) = Ok (b, zlen (roles q)) /\
    binv q q (roles q) (the_cf q) b.
Proof.
  intros Hni Hff He. destruct (construct_ok strict q Hni Hff q [] (eq_sym (app_nil_r q))) as (b & Hrun & Hb & Hl).
  unfold construct_dfa. rewrite Hrun. cbn [bind]. unfold finish_ctx, roles.
  assert (Hne : forall f, In f (query_fields q) -> f <> []) by (intros f Hf; apply Hff, Hf).
  destruct (ends_in_slice q) eqn:Es.
  - unfold ends_in_slice in Es. destruct (last_step q) as [[ | | | | | | | ]|]; try discriminate.
    destruct Hl as [G1 G2]. rewrite G1, G2, app_nil_r. exists b. auto.
  - assert (Hg : b_lastgen b = Some false).
    { unfold end_ok, ends_well in He. unfold ends_in_slice in Es. destruct (last_step q) as [[ | | | | | | | ]|] eqn:El; try discriminate; exact Hl. }
    rewrite Hg. pose proof (output_new q Hni He Es Hne) as Hnew.
    destruct (binv_create q q (roles_from 0 q) (the_cf q) b RO false (stack_of q)) as (Hc1 & Hc2).
    { apply (bi_st _ _ _ _ _ Hb). } { reflexivity. } { rewrite (bi_check _ _ _ _ _ Hb). exact Hnew. }
    { apply (stack_names_incl q q []). symmetry. apply app_nil_r. }
    { destruct Hb. constructor; auto. }
    set (b1 := fst (b_create false b)) in *.
    destruct (Hc2 b1 eq_refl) as (C1 & C2 & C3 & C4 & C5 & C6 & C7 & C8 & C9 & C10 & C11 & C12 & C13).
    rewrite C3, C4. exists b1. split; [rewrite zlen_app, zlen_cons, zlen_nil; reflexivity|].
    constructor; auto.
    + rewrite C10, map_app. reflexivity.
    + rewrite C11, map_app. reflexivity.
    + intros i j Hi. rewrite C12.
      destruct (Nat.lt_ge_cases i (List.length (roles_from 0 q))) as [Hl'|Hl'].
      * rewrite nth_error_app1 in Hi by exact Hl'. destruct (bi_map _ _ _ _ _ Hb i j Hi) as [G1 G2].
        split; [exact G1|]. intros t f Ht. specialize (G2 t f Ht).
        rewrite nth_error_app1; [exact G2|]. apply nth_error_Some. congruence.
      * rewrite nth_error_app2 in Hi by exact Hl'. destruct (i - _)%nat as [|[|?]]; discriminate.
    + intros i Hi. rewrite C12. apply (bi_map0 _ _ _ _ _ Hb).
      rewrite zlen_app, zlen_cons, zlen_nil in Hi. lia.
Qed.
