(** The loading and partitioning functions cut by the cutting rule and lose
    nothing. *)
From Verif Require Import Base Util Spec LexProof CutSpec Cut Loader.
From Coq Require Import Lia.
Open Scope Z_scope.

Lemma back_blank_ws c : back_blank c = ws_char c.
Proof. reflexivity. Qed.
Lemma opens_token_opens c : opens_token c = opens c.
Proof. reflexivity. Qed.

Lemma back_char_solid : forall r, back_char r = match last_solid (rev r) with Some c => Ok c | None => UB OOBRead end.
Proof.
  induction r as [|c r IH]; [reflexivity|]. cbn [back_char rev]. rewrite last_solid_app. cbn [last_solid]. rewrite back_blank_ws.
  destruct (ws_char c); [exact IH|reflexivity].
Qed.

Definition ff_next (r : bytes) : bool := match r with c :: _ => Ascii.eqb c BFF | [] => false end.
(** Where a piece may end. *)
Definition stop_at (a r : bytes) : Prop := r = [] \/ ff_next r = true \/ cut_at a r = true.

Lemma extend_spec : forall rest X add rbuf rbuf' add', extend X add rbuf rest = Ok (rbuf', add') ->
  exists m r, rest = m ++ r /\ rbuf' = rev m ++ rbuf /\ add' = add + zlen m /\ stop_at (rev rbuf') r.
Proof.
  induction rest as [|ch rest IH]; intros X add rbuf rbuf' add' H; cbn [extend] in H.
  - injection H as <- <-. exists [], []. split; [reflexivity|]. split; [reflexivity|]. split; [rewrite zlen_nil; lia|left; reflexivity].
  - assert (G : (if X <=? add then UB OOBWrite else extend X (add + 1) (ch :: rbuf) rest) = Ok (rbuf', add') ->
      exists m r, ch :: rest = m ++ r /\ rbuf' = rev m ++ rbuf /\ add' = add + zlen m /\ stop_at (rev rbuf') r).
    { clear H. intros H. destruct (X <=? add); [discriminate|]. apply IH in H. destruct H as (m & r & -> & -> & -> & Hs).
      exists (ch :: m), r. split; [reflexivity|]. split; [cbn [rev]; rewrite <- app_assoc; reflexivity|]. split; [rewrite zlen_cons; lia|exact Hs]. }
    assert (S0 : stop_at (rev rbuf) (ch :: rest) -> rbuf' = rbuf -> add' = add ->
      exists m r, ch :: rest = m ++ r /\ rbuf' = rev m ++ rbuf /\ add' = add + zlen m /\ stop_at (rev rbuf') r).
    { intros Hs -> ->. exists [], (ch :: rest). split; [reflexivity|]. split; [reflexivity|]. split; [rewrite zlen_nil; lia|exact Hs]. }
    destruct (Ascii.eqb ch BFF) eqn:Ef.
    + injection H as <- <-. apply S0; auto. right. left. exact Ef.
    + destruct (Ascii.eqb ch DQ) eqn:Eq; [|exact (G H)]. rewrite back_char_solid in H.
      destruct (last_solid (rev rbuf)) as [c|] eqn:El; [|discriminate]. cbn [bind] in H. rewrite opens_token_opens in H.
      destruct (opens c) eqn:Eo; [|exact (G H)]. injection H as <- <-. apply S0; auto. right. right. unfold cut_at. rewrite Eq, El. exact Eo.
Qed.

Lemma extend_ok : forall m X add rbuf r, last_solid (rev rbuf) <> None -> add + zlen m < X ->
  stop_at (rev rbuf ++ m) r -> exists rbuf' add', extend X add rbuf (m ++ r) = Ok (rbuf', add') /\ add' < X.
Proof.
  induction m as [|ch m IH]; intros X add rbuf r Hl Ha Hs.
  - cbn [app] in *. rewrite app_nil_r in Hs. rewrite zlen_nil in Ha. destruct r as [|ch r]; cbn [extend].
    + exists rbuf, add. split; [reflexivity|lia].
    + destruct Hs as [Hs|[Hs|Hs]]; [discriminate| |].
      * change (Ascii.eqb ch BFF = true) in Hs. rewrite Hs. exists rbuf, add. split; [reflexivity|lia].
      * unfold cut_at in Hs. apply andb_true_iff in Hs as [H1 H2]. destruct (Ascii.eqb ch BFF) eqn:Ef; [exists rbuf, add; split; [reflexivity|lia]|].
        rewrite H1, back_char_solid. destruct (last_solid (rev rbuf)); [|discriminate]. cbn [bind]. rewrite opens_token_opens, H2.
        exists rbuf, add. split; [reflexivity|lia].
  - rewrite zlen_cons in Ha. pose proof (zlen_nonneg m). cbn [app extend].
    assert (G : exists rbuf' add', (if X <=? add then UB OOBWrite else extend X (add + 1) (ch :: rbuf) (m ++ r)) = Ok (rbuf', add') /\ add' < X).
    { replace (X <=? add) with false by lia. apply IH; [|lia|].
      - cbn [rev]. rewrite last_solid_app. destruct (last_solid [ch]); [discriminate|exact Hl].
      - cbn [rev]. rewrite <- app_assoc. exact Hs. }
    assert (Q : exists rbuf' add', @Ok (bytes * Z) (rbuf, add) = Ok (rbuf', add') /\ add' < X) by (exists rbuf, add; split; [reflexivity|lia]).
    destruct (Ascii.eqb ch BFF); [exact Q|]. destruct (Ascii.eqb ch DQ); [|exact G].
    rewrite back_char_solid. destruct (last_solid (rev rbuf)) as [c|]; [|congruence]. cbn [bind]. destruct (opens_token c); [exact Q|exact G].
Qed.

Lemma skipn_skipn {A} : forall x y (l : list A), skipn x (skipn y l) = skipn (x + y) l.
Proof.
  intros x y. revert x. induction y as [|y IH]; intros x l; [rewrite Nat.add_0_r; reflexivity|].
  destruct l as [|a l]; [rewrite !skipn_nil; reflexivity|]. rewrite Nat.add_succ_r. cbn [skipn]. apply IH.
Qed.
Lemma firstn_skipn_z (l : bytes) (a n : Z) : 0 <= a -> 0 <= n -> a + n <= zlen l ->
  skipn (Z.to_nat a) l = firstn (Z.to_nat n) (skipn (Z.to_nat a) l) ++ skipn (Z.to_nat (a + n)) l /\
  zlen (firstn (Z.to_nat n) (skipn (Z.to_nat a) l)) = n.
Proof.
  intros Ha Hn Hl. split.
  - replace (Z.to_nat (a + n)) with (Z.to_nat n + Z.to_nat a)%nat by lia. rewrite <- skipn_skipn, firstn_skipn. reflexivity.
  - unfold zlen in *. rewrite firstn_length, skipn_length. lia.
Qed.

Lemma skipn_app_z (l m r : bytes) a : 0 <= a <= zlen l -> skipn (Z.to_nat a) l = m ++ r -> skipn (Z.to_nat (a + zlen m)) l = r.
Proof.
  intros Ha E. replace (Z.to_nat (a + zlen m)) with (List.length m + Z.to_nat a)%nat by (unfold zlen in *; lia).
  rewrite <- skipn_skipn, E. rewrite skipn_app, skipn_all, Nat.sub_diag. reflexivity.
Qed.

Lemma load_spec M X file start piece next : 0 < M -> 0 <= start <= zlen file -> loadBounded M X file start = Ok (Some (piece, next)) ->
  skipn (Z.to_nat start) file = piece ++ skipn (Z.to_nat next) file /\ next = start + zlen piece /\ piece <> [] /\ next <= zlen file /\
  stop_at piece (skipn (Z.to_nat next) file).
Proof.
  intros HM Hs H. unfold loadBounded in H. destruct (Z.min (zlen file - start) M <=? 0) eqn:E; [discriminate|].
  set (size := Z.min (zlen file - start) M) in *. apply Z.leb_gt in E.
  match type of H with bind ?x _ = _ => destruct x as [[rbuf add]|] eqn:Ex; [|discriminate H] end. cbn [bind] in H.
  destruct (X <=? add); [discriminate|]. injection H as <- <-.
  apply extend_spec in Ex. destruct Ex as (m & r & E1 & -> & -> & Hst).
  destruct (firstn_skipn_z file start size) as [Ef El]; [lia|lia|unfold size; lia|].
  replace (skipn (Z.to_nat size) (skipn (Z.to_nat start) file)) with (skipn (Z.to_nat (start + size)) file) in E1.
  2:{ rewrite skipn_skipn. f_equal. lia. }
  rewrite rev_app_distr, !rev_involutive in *. set (f := firstn (Z.to_nat size) (skipn (Z.to_nat start) file)) in *.
  rewrite E1, app_assoc in Ef.
  assert (En : skipn (Z.to_nat (start + size + (0 + zlen m))) file = r).
  { pose proof (skipn_app_z file (f ++ m) r start Hs Ef) as Hk. rewrite zlen_app, El in Hk. rewrite <- Hk. f_equal. lia. }
  rewrite En. split; [exact Ef|]. split; [rewrite zlen_app, El; lia|]. split.
  - intros Hn. assert (zlen (f ++ m) = 0) by (rewrite Hn; reflexivity). rewrite zlen_app, El in *. pose proof (zlen_nonneg m). lia.
  - split; [|exact Hst]. assert (Hl : zlen (skipn (Z.to_nat start) file) = zlen file - start) by (unfold zlen in *; rewrite skipn_length; lia).
    rewrite Ef, !zlen_app, El in Hl. pose proof (zlen_nonneg r). lia.
Qed.

Lemma load_none M X file start : 0 < M -> 0 <= start <= zlen file -> (loadBounded M X file start = Ok None <-> start = zlen file).
Proof.
  intros HM Hs. unfold loadBounded. destruct (Z.min (zlen file - start) M <=? 0) eqn:E; split; intros H; try reflexivity; try lia.
  match type of H with bind ?x _ = _ => destruct x as [[rbuf add]|]; [|discriminate H] end. cbn [bind] in H. destruct (X <=? add); discriminate.
Qed.

(** Successive calls of loadBoundedInputStream until it returns NULL. *)
Inductive loads (M X : Z) (file : bytes) : Z -> list bytes -> Prop :=
| loads_end s : loadBounded M X file s = Ok None -> loads M X file s []
| loads_more s p s' ps : loadBounded M X file s = Ok (Some (p, s')) -> loads M X file s' ps -> loads M X file s (p :: ps).

Lemma loads_concat M X file : 0 < M -> forall s ps, loads M X file s ps -> 0 <= s <= zlen file ->
  concat ps = skipn (Z.to_nat s) file /\ zlen ps <= zlen file - s.
Proof.
  intros HM s ps H. induction H as [s E|s p s' ps E Hl IH]; intros Hs.
  - apply load_none in E; [|assumption|assumption]. subst s. split; [|rewrite zlen_nil; lia].
    unfold zlen. rewrite Nat2Z.id, skipn_all. reflexivity.
  - apply load_spec in E; [|assumption|assumption]. destruct E as (E1 & E2 & E3 & E4 & _).
    assert (1 <= zlen p) by (destruct p; [congruence|rewrite zlen_cons; pose proof (zlen_nonneg p); lia]).
    destruct IH as [IH1 IH2]; [lia|]. split; [cbn [concat]; rewrite IH1; symmetry; exact E1|rewrite zlen_cons; lia].
Qed.

Definition solid_head (s : bytes) : bool := match s with c :: _ => negb (ws_char c) | [] => false end.
Lemma solid_last s : solid_head s = true -> last_solid s <> None.
Proof. destruct s as [|c s]; [discriminate|]. cbn. destruct (last_solid s); [discriminate|]. destruct (ws_char c); discriminate. Qed.
Lemma cut_solid a r : cut_at a r = true -> solid_head r = true.
Proof. unfold cut_at. destruct r as [|c r]; [discriminate|]. intros H. apply andb_true_iff in H as [H _]. apply Ascii.eqb_eq in H. subst c. reflexivity. Qed.
Lemma ff_solid r : ff_next r = true -> solid_head r = true.
Proof. destruct r as [|c r]; [discriminate|]. cbn. intros H. apply Ascii.eqb_eq in H. subst c. reflexivity. Qed.
Lemma cut_before b a r : cut_at a r = true -> cut_at (b ++ a) r = true.
Proof. unfold cut_at. rewrite last_solid_app. destruct (last_solid a); [auto|]. rewrite andb_false_r. discriminate. Qed.
Lemma cut_after b a r : last_solid a <> None -> cut_at (b ++ a) r = cut_at a r.
Proof. unfold cut_at. rewrite last_solid_app. destruct (last_solid a); [auto|congruence]. Qed.

Lemma loads_cut M X file : 0 < M -> ~ In BFF file -> forall s ps, loads M X file s ps -> 0 <= s <= zlen file ->
  forall b p, s = zlen p + zlen b -> cut_at p (skipn (Z.to_nat s) file) = true \/ s = zlen file -> well_cut (b ++ p) ps = true.
Proof.
  intros HM Hff s ps H. induction H as [s E|s p1 s' ps E Hl IH]; intros Hs b p Hb Hc; [reflexivity|].
  pose proof E as E0. apply load_spec in E; [|assumption|assumption]. destruct E as (E1 & E2 & E3 & E4 & E5).
  assert (1 <= zlen p1) by (destruct p1; [congruence|rewrite zlen_cons; pose proof (zlen_nonneg p1); lia]).
  destruct Hc as [Hc|Hc]; [|lia]. cbn [well_cut]. apply andb_true_iff. split.
  - apply cut_before. unfold cut_at in *. rewrite E1 in Hc. destruct p1; [congruence|exact Hc].
  - apply IH; [lia|rewrite zlen_app; lia|]. destruct E5 as [E5|[E5|E5]].
    + right. assert (zlen (skipn (Z.to_nat s') file) = 0) by (rewrite E5; reflexivity). unfold zlen in *. rewrite skipn_length in *. lia.
    + exfalso. apply Hff. destruct (skipn (Z.to_nat s') file) as [|c r] eqn:Er; [discriminate|]. cbn in E5. apply Ascii.eqb_eq in E5. subst c.
      rewrite <- (firstn_skipn (Z.to_nat s') file), Er. apply in_or_app. right. left. reflexivity.
    + left. exact E5.
Qed.

Lemma loads_pieces M X file ps : 0 < M -> ~ In BFF file -> loads M X file 0 ps ->
  match ps with [] => True | p :: ps' => well_cut p ps' = true end.
Proof.
  intros HM Hff H. destruct ps as [|p ps]; [exact I|]. inversion H as [|? ? s' ? E Hl]; subst.
  apply load_spec in E; [|assumption|pose proof (zlen_nonneg file); lia]. destruct E as (E1 & E2 & E3 & E4 & E5).
  pose proof (zlen_nonneg p).
  apply (loads_cut M X file HM Hff s' ps Hl ltac:(lia) [] p); [rewrite zlen_nil; lia|].
  destruct E5 as [E5|[E5|E5]].
  - right. assert (zlen (skipn (Z.to_nat s') file) = 0) by (rewrite E5; reflexivity). unfold zlen in *. rewrite skipn_length in *. lia.
  - exfalso. apply Hff. destruct (skipn (Z.to_nat s') file) as [|c r] eqn:Er; [discriminate|]. cbn in E5. apply Ascii.eqb_eq in E5. subst c.
    rewrite <- (firstn_skipn (Z.to_nat s') file), Er. apply in_or_app. right. left. reflexivity.
  - left. exact E5.
Qed.

(** From every offset at or behind the budget there is a cut, a byte 255 or the end of the file
    within fewer than [X] bytes. *)
Definition cuts_near (M X : Z) (file : bytes) : Prop := forall a b, file = a ++ b -> M <= zlen a ->
  exists m r, b = m ++ r /\ zlen m < X /\ (r = [] \/ ff_next r = true \/ cut_at (a ++ m) r = true).

Lemma loads_total M X file : 0 < M -> 0 < X -> cuts_near M X file -> forall n s, 0 <= s <= zlen file -> zlen file - s <= Z.of_nat n ->
  s = zlen file \/ solid_head (skipn (Z.to_nat s) file) = true -> exists ps, loads M X file s ps.
Proof.
  intros HM HX Hc. induction n as [|n IH]; intros s Hs Hn Hh.
  { exists []. constructor. apply load_none; [assumption|assumption|lia]. }
  destruct (Z.eq_dec s (zlen file)) as [->|Hne].
  { exists []. constructor. apply load_none; [assumption|assumption|reflexivity]. }
  destruct Hh as [Hh|Hh]; [contradiction|].
  assert (Hl : exists p s', loadBounded M X file s = Ok (Some (p, s'))).
  { unfold loadBounded. set (size := Z.min (zlen file - s) M). replace (size <=? 0) with false by (unfold size; lia).
    destruct (firstn_skipn_z file s size) as [Ef El]; [lia|unfold size; lia|unfold size; lia|].
    replace (skipn (Z.to_nat size) (skipn (Z.to_nat s) file)) with (skipn (Z.to_nat (s + size)) file) by (rewrite skipn_skipn; f_equal; unfold size; lia).
    set (f := firstn (Z.to_nat size) (skipn (Z.to_nat s) file)) in *.
    assert (Hf : last_solid f <> None).
    { apply solid_last. clearbody f. destruct f as [|c f1]; [rewrite zlen_nil in El; unfold size in El; lia|]. rewrite Ef in Hh. exact Hh. }
    assert (Hx : exists m r, skipn (Z.to_nat (s + size)) file = m ++ r /\ zlen m < X /\ stop_at (f ++ m) r).
    { destruct (Z.le_gt_cases (zlen file - s) M) as [Hle|Hgt].
      - exists [], []. split; [|split; [rewrite zlen_nil; exact HX|left; reflexivity]].
        replace (s + size) with (zlen file) by (unfold size; lia). unfold zlen. rewrite Nat2Z.id, skipn_all. reflexivity.
      - destruct (Hc (firstn (Z.to_nat (s + size)) file) (skipn (Z.to_nat (s + size)) file)) as (m & r & E1 & E2 & E3).
        + symmetry. apply firstn_skipn.
        + unfold zlen in *. rewrite firstn_length. unfold size in *. lia.
        + exists m, r. split; [exact E1|]. split; [exact E2|]. destruct E3 as [E3|[E3|E3]]; [left; exact E3|right; left; exact E3|]. right. right.
          rewrite <- E3. symmetry. assert (Hff : firstn (Z.to_nat (s + size)) file = firstn (Z.to_nat s) file ++ f).
          { unfold f. replace (Z.to_nat (s + size)) with (Z.to_nat s + Z.to_nat size)%nat by (unfold size; lia).
            rewrite <- (firstn_skipn (Z.to_nat s) file) at 1. rewrite firstn_app, firstn_firstn. rewrite firstn_length.
            rewrite (Nat.min_r (Z.to_nat s + Z.to_nat size) (Z.to_nat s)) by lia. f_equal. f_equal. unfold zlen in *. lia. }
          rewrite Hff, <- app_assoc. apply cut_after. rewrite last_solid_app. destruct (last_solid m); [discriminate|exact Hf]. }
    destruct Hx as (m & r & E1 & E2 & E3). rewrite E1.
    destruct (extend_ok m X 0 (rev f) r) as (rb & ad & E4 & E5).
    - rewrite rev_involutive. exact Hf.
    - lia.
    - rewrite rev_involutive. exact E3.
    - rewrite E4. cbn [bind]. replace (X <=? ad) with false by lia. eauto. }
  destruct Hl as (p & s' & E). pose proof E as E0. apply load_spec in E; [|assumption|assumption]. destruct E as (E1 & E2 & E3 & E4 & E5).
  assert (1 <= zlen p) by (destruct p; [congruence|rewrite zlen_cons; pose proof (zlen_nonneg p); lia]).
  destruct (IH s') as (ps & Hps); [lia|lia| |].
  - destruct E5 as [E5|[E5|E5]]; [left|right; apply ff_solid; exact E5|right; eapply cut_solid; exact E5].
    assert (zlen (skipn (Z.to_nat s') file) = 0) by (rewrite E5; reflexivity). unfold zlen in *. rewrite skipn_length in *. lia.
  - exists (p :: ps). econstructor; eauto.
Qed.

(** A file without any cut behind the budget overflows the buffer. *)
Lemma extend_over : forall rest X add rbuf, forallb (fun c => negb (Ascii.eqb c BFF || Ascii.eqb c DQ)) rest = true ->
  X < add + zlen rest + 1 -> extend X add rbuf rest = UB OOBWrite \/ exists r a, extend X add rbuf rest = Ok (r, a) /\ X <= a.
Proof.
  induction rest as [|ch rest IH]; intros X add rbuf Hf Hl; cbn [extend].
  - right. exists rbuf, add. rewrite zlen_nil in Hl. split; [reflexivity|lia].
  - cbn [forallb] in Hf. apply andb_true_iff in Hf as [Hc Hf]. apply negb_true_iff, orb_false_iff in Hc. destruct Hc as [-> ->].
    destruct (X <=? add) eqn:E; [left; reflexivity|]. rewrite zlen_cons in Hl. apply IH; [exact Hf|lia].
Qed.

(** * partitionInputStream *)
Lemma cut_chunk_spec : forall rest X add rbuf rbuf' add', cut_chunk X add rbuf rest = Ok (rbuf', add') ->
  exists m r, rest = m ++ r /\ rbuf' = rev m ++ rbuf /\ add' = add + zlen m /\ cut_at (rev rbuf') r = true /\ add' < X.
Proof.
  induction rest as [|ch rest IH]; intros X add rbuf rbuf' add' H; cbn [cut_chunk] in H; [discriminate|].
  assert (G : cut_chunk X (add + 1) (ch :: rbuf) rest = Ok (rbuf', add') ->
      exists m r, ch :: rest = m ++ r /\ rbuf' = rev m ++ rbuf /\ add' = add + zlen m /\ cut_at (rev rbuf') r = true /\ add' < X).
  { clear H. intros H. apply IH in H. destruct H as (m & r & -> & -> & -> & Hs).
    exists (ch :: m), r. split; [reflexivity|]. split; [cbn [rev]; rewrite <- app_assoc; reflexivity|]. split; [rewrite zlen_cons; lia|exact Hs]. }
  destruct (Ascii.eqb ch DQ) eqn:Eq.
  - rewrite back_char_solid in H. destruct (last_solid (rev rbuf)) as [c|] eqn:El; [|discriminate]. cbn [bind] in H.
    destruct (X <=? add) eqn:EX; [discriminate|]. rewrite opens_token_opens in H. destruct (opens c) eqn:Eo; [|exact (G H)].
    injection H as <- <-. exists [], (ch :: rest). split; [reflexivity|]. split; [reflexivity|]. split; [rewrite zlen_nil; lia|].
    split; [unfold cut_at; rewrite Eq, El; exact Eo|lia].
  - destruct (X <=? add); [discriminate|]. exact (G H).
Qed.

Lemma cut_chunk_ok : forall m X add rbuf r, last_solid (rev rbuf) <> None -> add + zlen m < X ->
  cut_at (rev rbuf ++ m) r = true -> exists rbuf' add', cut_chunk X add rbuf (m ++ r) = Ok (rbuf', add').
Proof.
  induction m as [|ch m IH]; intros X add rbuf r Hl Ha Hs.
  - cbn [app] in *. rewrite app_nil_r in Hs. rewrite zlen_nil in Ha. unfold cut_at in Hs. destruct r as [|ch r]; [discriminate|]. cbn [cut_chunk].
    apply andb_true_iff in Hs as [H1 H2]. rewrite H1, back_char_solid. destruct (last_solid (rev rbuf)); [|discriminate]. cbn [bind].
    replace (X <=? add) with false by lia. rewrite opens_token_opens, H2. eauto.
  - rewrite zlen_cons in Ha. pose proof (zlen_nonneg m). cbn [app cut_chunk]. replace (X <=? add) with false by lia.
    assert (G : exists rbuf' add', cut_chunk X (add + 1) (ch :: rbuf) (m ++ r) = Ok (rbuf', add')).
    { apply IH; [|lia|].
      - cbn [rev]. rewrite last_solid_app. destruct (last_solid [ch]); [discriminate|exact Hl].
      - cbn [rev]. rewrite <- app_assoc. exact Hs. }
    destruct (Ascii.eqb ch DQ); [|exact G].
    rewrite back_char_solid. destruct (last_solid (rev rbuf)) as [c|]; [|congruence]. cbn [bind]. destruct (opens_token c); [eauto|exact G].
Qed.

Lemma read_range_in s a n : 0 <= a -> 0 < n -> a + n <= zlen s -> read_range s a n = Ok (firstn (Z.to_nat n) (skipn (Z.to_nat a) s)).
Proof.
  intros Ha Hn Hl. unfold read_range. replace (n <=? 0) with false by lia.
  replace ((a <? 0) || (zlen s + 1 <? a + n)) with false by lia. f_equal.
  rewrite skipn_app, firstn_app. rewrite skipn_length. replace (Z.to_nat n - (List.length s - Z.to_nat a))%nat with O by (unfold zlen in *; lia).
  rewrite firstn_O, app_nil_r. reflexivity.
Qed.

Lemma in_firstn {A} (x : A) n l : In x (firstn n l) -> In x l.
Proof. rewrite <- (firstn_skipn n l) at 2. intros H. apply in_or_app. auto. Qed.
Lemma in_skipn {A} (x : A) n l : In x (skipn n l) -> In x l.
Proof. rewrite <- (firstn_skipn n l) at 2. intros H. apply in_or_app. auto. Qed.

Section Partition.
  Variables (X chunk : Z) (s : bytes).
  Hypothesis Hlead : lead_blanks s = O.
  Hypothesis Hnul : no_nul s.
  Hypothesis Hch : 0 < chunk.

  Lemma ltrim0 : ltrim s 0 = 0.
  Proof. unfold ltrim. cbn. rewrite Hlead. reflexivity. Qed.

  (** One chunk: the bytes from [sum] up to the first cut at or behind [sum + chunk]. *)
  Lemma one_chunk sum buf rbuf add : 0 <= sum -> sum + chunk <= zlen s ->
    read_range s (ltrim s 0 + sum) chunk = Ok buf ->
    cut_chunk X 0 (rev buf) (skipn (Z.to_nat (sum + chunk)) (s ++ [NUL])) = Ok (rbuf, add) ->
    skipn (Z.to_nat sum) s = rev rbuf ++ skipn (Z.to_nat (sum + chunk + add)) s /\ zlen (rev rbuf) = chunk + add /\ 0 <= add < X /\
    sum + chunk + add < zlen s /\ cut_at (rev rbuf) (skipn (Z.to_nat (sum + chunk + add)) s) = true /\ c_string (rev rbuf) = rev rbuf.
  Proof.
    intros Hs Hl Hr Hc. rewrite ltrim0 in Hr. cbn in Hr. rewrite read_range_in in Hr by assumption. injection Hr as <-.
    apply cut_chunk_spec in Hc. destruct Hc as (m & r & Em & -> & -> & Hcut & HaX). rewrite rev_app_distr, !rev_involutive in *.
    destruct (firstn_skipn_z s sum chunk Hs ltac:(lia) Hl) as [Ef El]. set (f := firstn (Z.to_nat chunk) (skipn (Z.to_nat sum) s)) in *.
    rewrite skipn_app in Em. replace (Z.to_nat (sum + chunk) - List.length s)%nat with O in Em by (unfold zlen in *; lia). cbn [skipn] in Em.
    assert (Hr : exists r0, r = r0 ++ [NUL] /\ skipn (Z.to_nat (sum + chunk)) s = m ++ r0 /\ r0 <> []).
    { destruct r as [|c r]; [discriminate|]. destruct (exists_last (l := c :: r)) as (r0 & z & E); [discriminate|]. rewrite E in *.
      rewrite app_assoc in Em. apply app_inj_tail in Em. destruct Em as [Em <-]. exists r0. split; [reflexivity|]. split; [exact Em|].
      intros ->. cbn in Hcut. discriminate. }
    destruct Hr as (r0 & -> & Er & Hne).
    assert (Ek : skipn (Z.to_nat (sum + chunk + (0 + zlen m))) s = r0).
    { replace (sum + chunk + (0 + zlen m)) with (sum + zlen (f ++ m)) by (rewrite zlen_app, El; lia).
      apply skipn_app_z; [lia|]. rewrite Ef, Er, <- app_assoc. reflexivity. }
    rewrite Ek. split; [rewrite Ef, Er, <- app_assoc; reflexivity|]. split; [rewrite zlen_app, El; lia|]. pose proof (zlen_nonneg m). split; [lia|].
    assert (Hlr : zlen (skipn (Z.to_nat (sum + chunk)) s) = zlen s - (sum + chunk)) by (unfold zlen in *; rewrite skipn_length; lia).
    rewrite Er, zlen_app in Hlr. assert (1 <= zlen r0) by (destruct r0; [congruence|rewrite zlen_cons; pose proof (zlen_nonneg r0); lia]).
    split; [lia|]. split.
    - destruct r0 as [|c r0]; [congruence|]. exact Hcut.
    - apply c_string_id. intros Hin. apply Hnul. apply in_app_or in Hin. destruct Hin as [Hin|Hin].
      + unfold f in Hin. apply in_firstn, in_skipn in Hin. exact Hin.
      + apply (in_skipn NUL (Z.to_nat (sum + chunk))). rewrite Er. apply in_or_app. auto.
  Qed.

  Lemma part_loop_spec : forall n sum l r, part_loop X chunk s n sum = Ok (l, r) -> 0 <= sum < zlen s -> (n <> O -> sum + chunk <= zlen s) ->
    concat l ++ skipn (Z.to_nat r) s = skipn (Z.to_nat sum) s /\ sum <= r < zlen s /\ (List.length l <= n)%nat /\
    (exists p ps, l ++ [skipn (Z.to_nat r) s] = p :: ps /\ p <> [] /\ (exists t, skipn (Z.to_nat sum) s = p ++ t) /\ forall b, well_cut (b ++ p) ps = true).
  Proof.
    induction n as [|n IH]; intros sum l r H Hs Hn; cbn [part_loop] in H.
    - injection H as <- <-. cbn [concat app]. split; [reflexivity|]. split; [lia|]. split; [cbn; lia|].
      exists (skipn (Z.to_nat sum) s), []. split; [reflexivity|]. split.
      + intros E. assert (zlen (skipn (Z.to_nat sum) s) = 0) by (rewrite E; reflexivity). unfold zlen in *. rewrite skipn_length in *. lia.
      + split; [exists []; rewrite app_nil_r; reflexivity|reflexivity].
    - specialize (Hn ltac:(discriminate)).
      destruct (read_range s (ltrim s 0 + sum) chunk) as [buf|] eqn:Er; [|discriminate]. cbn [bind] in H.
      replace (sum + chunk <=? zlen s) with true in H by lia.
      destruct (cut_chunk X 0 (rev buf) (skipn (Z.to_nat (sum + chunk)) (s ++ [NUL]))) as [[rbuf add]|] eqn:Ec; [|discriminate]. cbn [bind] in H.
      destruct (one_chunk sum buf rbuf add ltac:(lia) Hn Er Ec) as (E1 & E2 & E3 & E4 & E5 & E6). rewrite E6 in H.
      assert (Hp : rev rbuf <> []) by (intros E; rewrite E, zlen_nil in E2; lia).
      destruct (zlen s <=? sum + chunk + add + chunk) eqn:Eb.
      + injection H as <- <-. cbn [concat app]. rewrite app_nil_r. split; [symmetry; exact E1|]. split; [lia|]. split; [cbn; lia|].
        exists (rev rbuf), [skipn (Z.to_nat (sum + chunk + add)) s]. split; [reflexivity|]. split; [exact Hp|]. split; [eexists; exact E1|].
        intros b. cbn [well_cut]. rewrite andb_true_r. apply cut_before. exact E5.
      + destruct (part_loop X chunk s n (sum + chunk + add)) as [[l' r']|] eqn:El; [|discriminate]. cbn [bind] in H. injection H as <- <-.
        apply Z.leb_gt in Eb.
        destruct (IH _ _ _ El) as (I1 & I2 & I3 & p & ps & I4 & I5 & (t & I6) & I7); [lia|lia|].
        cbn [concat]. split; [rewrite <- app_assoc, I1; symmetry; exact E1|]. split; [lia|]. split; [cbn; lia|].
        exists (rev rbuf), (p :: ps). split; [rewrite <- app_comm_cons, I4; reflexivity|]. split; [exact Hp|]. split; [eexists; exact E1|].
        intros b. cbn [well_cut]. rewrite I7, andb_true_r. apply cut_before. rewrite I6 in E5. unfold cut_at in *. destruct p; [congruence|exact E5].
  Qed.

  (** Up to offset [b] there is always a cut within fewer than [X] bytes. *)
  Definition cuts_until (b : Z) : Prop := forall a t, s = a ++ t -> zlen a <= b ->
    exists m r, t = m ++ r /\ zlen m < X /\ cut_at (a ++ m) r = true.

  Lemma part_loop_total : 0 < X -> forall n sum, 0 <= sum < zlen s -> (n <> O -> sum + chunk <= zlen s) ->
    solid_head (skipn (Z.to_nat sum) s) = true -> cuts_until (sum + Z.of_nat n * (chunk + X)) -> exists l r, part_loop X chunk s n sum = Ok (l, r).
  Proof.
    intros HX. induction n as [|n IH]; intros sum Hs Hn Hh Hc; cbn [part_loop]; [eauto|]. specialize (Hn ltac:(discriminate)).
    rewrite ltrim0. replace (0 + sum) with sum by lia. rewrite read_range_in by lia. cbn [bind]. replace (sum + chunk <=? zlen s) with true by lia.
    destruct (firstn_skipn_z s sum chunk ltac:(lia) ltac:(lia) Hn) as [Ef El]. set (f := firstn (Z.to_nat chunk) (skipn (Z.to_nat sum) s)) in *.
    assert (Hf : last_solid f <> None).
    { apply solid_last. clearbody f. destruct f as [|c f1]; [rewrite zlen_nil in El; lia|]. rewrite Ef in Hh. exact Hh. }
    assert (Esp : s = (firstn (Z.to_nat sum) s ++ f) ++ skipn (Z.to_nat (sum + chunk)) s).
    { rewrite <- app_assoc, <- Ef. symmetry. apply firstn_skipn. }
    destruct (Hc _ _ Esp) as (m & r & E1 & E2 & E3).
    { rewrite zlen_app, El. unfold zlen. rewrite firstn_length. nia. }
    rewrite <- app_assoc in E3. rewrite cut_after in E3 by (rewrite last_solid_app; destruct (last_solid m); [discriminate|exact Hf]).
    assert (Esk : skipn (Z.to_nat (sum + chunk)) (s ++ [NUL]) = m ++ r ++ [NUL]).
    { rewrite skipn_app. replace (Z.to_nat (sum + chunk) - List.length s)%nat with O by (unfold zlen in *; lia). cbn [skipn]. rewrite E1, <- app_assoc. reflexivity. }
    destruct (cut_chunk_ok m X 0 (rev f) (r ++ [NUL])) as (rbuf & add & Ec).
    - rewrite rev_involutive. exact Hf.
    - lia.
    - rewrite rev_involutive. destruct r as [|c r]; [unfold cut_at in E3; discriminate|]. exact E3.
    - rewrite <- Esk in Ec. unfold bytes in *. rewrite Ec. cbn [bind].
      destruct (one_chunk sum f rbuf add ltac:(lia) Hn) as (F1 & F2 & F3 & F4 & F5 & F6); [rewrite ltrim0; replace (0 + sum) with sum by lia; rewrite read_range_in by lia; reflexivity|exact Ec|].
      destruct (zlen s <=? sum + chunk + add + chunk) eqn:Eb; [eauto|]. apply Z.leb_gt in Eb.
      destruct (IH (sum + chunk + add)) as (l & r0 & E); [lia|lia|eapply cut_solid; exact F5| |rewrite E; cbn [bind]; eauto].
      intros a t Hat Hle. apply Hc; [exact Hat|]. nia.
  Qed.
End Partition.

Lemma substring_rest (s : bytes) a : lead_blanks s = O -> no_nul s -> 0 <= a <= zlen s -> substring s 0 a (zlen s) = Ok (skipn (Z.to_nat a) s).
Proof.
  intros Hl Hn Ha. unfold substring. rewrite ltrim0 by exact Hl. replace (zlen s <? a) with false by lia.
  destruct (Z.eq_dec a (zlen s)) as [->|Hne].
  - unfold read_range. replace (zlen s - zlen s <=? 0) with true by lia. cbn. unfold zlen. rewrite Nat2Z.id, skipn_all. reflexivity.
  - replace (0 + a) with a by lia. rewrite read_range_in by lia. cbn [bind]. rewrite firstn_all2 by (rewrite skipn_length; unfold zlen in *; lia).
    rewrite c_string_id; [reflexivity|]. intros H. apply Hn. apply in_skipn in H. exact H.
Qed.

Lemma chunk_le (s : bytes) n : s <> [] -> (2 <= n)%nat -> zlen s / Z.of_nat n + 1 <= zlen s.
Proof.
  intros Hs Hn. assert (1 <= zlen s) by (destruct s; [congruence|rewrite zlen_cons; pose proof (zlen_nonneg s); lia]).
  assert (zlen s / Z.of_nat n <= zlen s / 2) by (apply Z.div_le_compat_l; lia).
  assert (zlen s / 2 < zlen s) by (apply Z.div_lt; lia). lia.
Qed.

Theorem partition_spec X (s : bytes) n cs : s <> [] -> lead_blanks s = O -> no_nul s -> partition X s n = Ok cs ->
  exists p ps, cs = map Some (p :: ps) /\ concat (p :: ps) = s /\ (List.length (p :: ps) <= n)%nat /\ well_cut p ps = true.
Proof.
  intros Hs Hl Hn H. unfold partition in H. rewrite c_string_id in H by exact Hn. destruct (Nat.eqb n 0) eqn:En; [discriminate|].
  apply Nat.eqb_neq in En. set (chunk := zlen s / Z.of_nat n + 1) in *.
  assert (Hpos : 1 <= zlen s) by (destruct s; [congruence|rewrite zlen_cons; pose proof (zlen_nonneg s); lia]).
  assert (Hc : 0 < chunk) by (unfold chunk; pose proof (Z.div_pos (zlen s) (Z.of_nat n)); lia).
  destruct (part_loop X chunk s (pred n) 0) as [[l r]|] eqn:El; [|discriminate]. cbn [bind] in H.
  destruct (part_loop_spec X chunk s Hl Hn Hc (pred n) 0 l r El) as (I1 & I2 & I3 & p & ps & I4 & I5 & _ & I7); [lia| |].
  { intros Hp. replace (0 + chunk) with chunk by lia. apply chunk_le; [exact Hs|lia]. }
  replace (0 <? zlen s - r) with true in H by lia. rewrite substring_rest in H by (auto; lia). cbn [bind] in H. injection H as <-.
  exists p, ps. rewrite <- I4. split; [rewrite map_app; reflexivity|]. split; [rewrite concat_app; cbn [concat]; rewrite app_nil_r, I1; reflexivity|].
  split; [rewrite app_length; cbn; lia|]. apply (I7 []).
Qed.

Theorem partition_total X (s : bytes) n : s <> [] -> lead_blanks s = O -> no_nul s -> n <> O -> 0 < X -> solid_head s = true ->
  cuts_until X s (Z.of_nat (pred n) * (zlen s / Z.of_nat n + 1 + X)) -> exists cs, partition X s n = Ok cs.
Proof.
  intros Hs Hl Hn Hn0 HX Hh Hc. unfold partition. rewrite c_string_id by exact Hn. replace (Nat.eqb n 0) with false by (symmetry; apply Nat.eqb_neq; exact Hn0).
  set (chunk := zlen s / Z.of_nat n + 1) in *.
  assert (Hpos : 1 <= zlen s) by (destruct s; [congruence|rewrite zlen_cons; pose proof (zlen_nonneg s); lia]).
  assert (Hcp : 0 < chunk) by (unfold chunk; pose proof (Z.div_pos (zlen s) (Z.of_nat n)); lia).
  assert (Hle : pred n <> O -> 0 + chunk <= zlen s) by (intros Hp; replace (0 + chunk) with chunk by lia; apply chunk_le; [exact Hs|lia]).
  destruct (part_loop_total X chunk s Hl Hn Hcp HX (pred n) 0) as (l & r & E); [lia|exact Hle|exact Hh|exact Hc|].
  rewrite E. cbn [bind]. destruct (part_loop_spec X chunk s Hl Hn Hcp (pred n) 0 l r E) as (_ & I2 & _); [lia|exact Hle|].
  replace (0 <? zlen s - r) with true by lia. rewrite substring_rest by (auto; lia). cbn [bind]. eauto.
Qed.

(** * partitionFile *)
Theorem partition_file_null X file n cs : partition_file X file n = Ok cs -> In None cs.
Proof.
  unfold partition_file. destruct (Nat.eqb n 0); [discriminate|].
  destruct (part_file_loop X (zlen file / Z.of_nat n + 1) (zlen file) (pred n) None file 0) as [[[[l sum] ch] rest]|]; [|discriminate]. cbn [bind].
  destruct (0 <? zlen file - sum).
  - rewrite Z.leb_refl. discriminate.
  - intros H. injection H as <-. apply in_or_app. right. left. reflexivity.
Qed.

Lemma partition_file_one X file : file <> [] -> partition_file X file 1 = UB OOBWrite.
Proof.
  intros H. unfold partition_file. cbn [Nat.eqb pred part_file_loop bind].
  assert (1 <= zlen file) by (destruct file; [congruence|rewrite zlen_cons; pose proof (zlen_nonneg file); lia]).
  replace (0 <? zlen file - 0) with true by lia. rewrite Z.leb_refl. reflexivity.
Qed.

Lemma extend_file_spec : forall rest X add rbuf rbuf' add' ch r, extend_file X add rbuf rest = Ok (rbuf', add', ch, r) ->
  exists m, rbuf' = rev m ++ rbuf /\ add' = add + zlen m /\
    ((ch = None /\ (rest = m /\ r = [] \/ rest = m ++ BFF :: r)) \/ (ch = Some DQ /\ rest = m ++ DQ :: r /\ cut_at (rev rbuf') (DQ :: r) = true)).
Proof.
  induction rest as [|c rest IH]; intros X add rbuf rbuf' add' ch r H; cbn [extend_file] in H.
  - injection H as <- <- <- <-. exists []. split; [reflexivity|]. split; [rewrite zlen_nil; lia|]. left. auto.
  - assert (G : (if X <=? add then UB OOBWrite else extend_file X (add + 1) (c :: rbuf) rest) = Ok (rbuf', add', ch, r) ->
      exists m, rbuf' = rev m ++ rbuf /\ add' = add + zlen m /\
    ((ch = None /\ (c :: rest = m /\ r = [] \/ c :: rest = m ++ BFF :: r)) \/ (ch = Some DQ /\ c :: rest = m ++ DQ :: r /\ cut_at (rev rbuf') (DQ :: r) = true))).
    { clear H. intros H. destruct (X <=? add); [discriminate|]. apply IH in H. destruct H as (m & -> & -> & Hr).
      exists (c :: m). split; [cbn [rev]; rewrite <- app_assoc; reflexivity|]. split; [rewrite zlen_cons; lia|].
      destruct Hr as [(-> & [(-> & ->) | ->]) | (-> & -> & Hr)]; [left; auto|left; auto|right; auto]. }
    destruct (Ascii.eqb c BFF) eqn:Ef.
    + injection H as <- <- <- <-. apply Ascii.eqb_eq in Ef. subst c. exists []. split; [reflexivity|]. split; [rewrite zlen_nil; lia|]. left. auto.
    + destruct (Ascii.eqb c DQ) eqn:Eq; [|exact (G H)]. rewrite back_char_solid in H.
      destruct (last_solid (rev rbuf)) as [z|] eqn:El; [|discriminate]. cbn [bind] in H. rewrite opens_token_opens in H.
      destruct (opens z) eqn:Eo; [|exact (G H)]. injection H as <- <- <- <-. apply Ascii.eqb_eq in Eq. subst c.
      exists []. split; [reflexivity|]. split; [rewrite zlen_nil; lia|]. right. split; [reflexivity|]. split; [reflexivity|].
      unfold cut_at. cbn. rewrite El. exact Eo.
Qed.
