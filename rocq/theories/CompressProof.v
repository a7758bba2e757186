(** The packed transition table loses nothing. *)
From Verif Require Import Base Compress.
Open Scope Z_scope.

Definition cell (l : list Z) (k : Z) : Z := match znth l k with Some x => x | None => 0 end.

Lemma zread_cell l k : 0 <= k < zlen l -> zread l k = Ok (cell l k).
Proof.
  intros H. unfold zread, cell, znth. replace (k <? 0) with false by lia.
  destruct (nth_error l (Z.to_nat k)) eqn:E; [reflexivity|].
  apply nth_error_None in E. unfold zlen in H. lia.
Qed.

Lemma cell_out l k : k < 0 \/ zlen l <= k -> cell l k = 0.
Proof.
  intros H. unfold cell, znth. destruct (Z.ltb_spec k 0); [reflexivity|].
  destruct (nth_error l (Z.to_nat k)) eqn:E; [|reflexivity].
  assert (nth_error l (Z.to_nat k) <> None) as Hn by congruence.
  apply nth_error_Some in Hn. unfold zlen in H. lia.
Qed.

Lemma cell_grow l n k : cell (grow l n) k = cell l k.
Proof.
  unfold cell, znth, grow. destruct (Z.ltb_spec k 0); [reflexivity|].
  destruct (Nat.lt_ge_cases (Z.to_nat k) (List.length l)) as [Hk|Hk].
  - rewrite nth_error_app1 by exact Hk. reflexivity.
  - rewrite nth_error_app2 by exact Hk.
    replace (nth_error l (Z.to_nat k)) with (@None Z) by (symmetry; apply nth_error_None; exact Hk).
    destruct (nth_error _ _) eqn:E; [|reflexivity].
    apply nth_error_In, repeat_spec in E. exact E.
Qed.

Lemma zlen_grow l n : zlen (grow l n) = Z.max (zlen l) n.
Proof. unfold grow, zlen. rewrite app_length, repeat_length. lia. Qed.

Lemma zwrite_ok (l : list Z) k x : 0 <= k < zlen l -> zwrite l k x = Ok (upd l (Z.to_nat k) x).
Proof. intros H. unfold zwrite. replace ((k <? 0) || (zlen l <=? k)) with false by lia. reflexivity. Qed.

Lemma cell_upd l k x j : 0 <= k < zlen l ->
  cell (upd l (Z.to_nat k) x) j = if j =? k then x else cell l j.
Proof.
  intros H. unfold cell, znth. destruct (Z.eqb_spec j k) as [->|Hn].
  - replace (k <? 0) with false by lia.
    rewrite nth_error_upd_same by (unfold zlen in H; lia). reflexivity.
  - destruct (Z.ltb_spec j 0); [reflexivity|].
    rewrite nth_error_upd_other by lia. reflexivity.
Qed.

Lemma zlen_upd (l : list Z) k x : zlen (upd l k x) = zlen l.
Proof. unfold zlen. rewrite upd_length. reflexivity. Qed.

(** * Abstract lookup *)
Definition raw (c : cdfa) (t a : Z) : option Z :=
  let k := cell (m_base c) t + a in
  if (0 <=? k) && (k <? c_bottom c) && (cell (m_check c) k =? t)
  then Some (cell (m_next c) k) else None.

Definition look (c : cdfa) (t a : Z) : Z :=
  match raw c t a with
  | Some x => x
  | None =>
      let df := cell (m_default c) t in
      if 0 <? df
      then match raw c df a with Some x => x | None => - cell (m_default c) df end
      else - df
  end.

(** * Invariant: the states 1 .. s-1 have been added *)
Record inv (c : cdfa) (s : Z) : Prop := {
  i_len  : zlen (m_base c) = zlen (m_default c);
  i_nc   : zlen (m_next c) = zlen (m_check c);
  i_top  : 0 <= c_top c <= c_bottom c;
  i_bot  : c_bottom c <= zlen (m_check c);
  i_free : forall k, c_bottom c <= k -> cell (m_check c) k = 0;
  i_own  : forall k, 0 <= cell (m_check c) k < s;
  i_st   : forall t, 1 <= t < s -> t < zlen (m_default c);
  i_def  : forall t, 1 <= t < s ->
             cell (m_default c) t <= 0 \/
             (1 <= cell (m_default c) t < s /\ cell (m_default c) (cell (m_default c) t) <= 0)
}.

Lemma step_ok c t a f : zlen (m_base c) = zlen (m_default c) -> zlen (m_next c) = zlen (m_check c) ->
  c_bottom c <= zlen (m_check c) -> 1 <= t < zlen (m_default c) -> 1 <= a ->
  nextState (S f) c t a =
  match raw c t a with
  | Some x => Ok x
  | None => if 0 <? cell (m_default c) t then nextState f c (cell (m_default c) t) a
            else Ok (- cell (m_default c) t)
  end.
Proof.
  intros Hl Hn Hb Hd Ha.
  cbn [nextState]. replace ((t =? 0) || (a =? 0)) with false by lia.
  rewrite (zread_cell (m_base c)) by lia. cbn [bind]. unfold raw.
  destruct ((0 <=? cell (m_base c) t + a) && (cell (m_base c) t + a <? c_bottom c)) eqn:E; cbn [bind andb].
  - rewrite (zread_cell (m_check c)) by lia. cbn [bind].
    destruct (cell (m_check c) (cell (m_base c) t + a) =? t).
    + rewrite (zread_cell (m_next c)) by lia. reflexivity.
    + rewrite (zread_cell (m_default c)) by lia. reflexivity.
  - rewrite (zread_cell (m_default c)) by lia. reflexivity.
Qed.

Lemma lookup_ok c s t a : inv c s -> 1 <= t < s -> 1 <= a -> lookup c t a = Ok (look c t a).
Proof.
  intros Hi Ht Ha. unfold lookup.
  pose proof (i_st c s Hi t Ht) as Hd. pose proof (i_len c s Hi) as Hl.
  pose proof (i_bot c s Hi) as Hb. pose proof (i_nc c s Hi) as Hn.
  destruct (List.length (m_default c)) as [|n] eqn:En; [unfold zlen in Hd; lia|].
  rewrite step_ok by (assumption || lia). unfold look.
  destruct (raw c t a); [reflexivity|].
  destruct (Z.ltb_spec 0 (cell (m_default c) t)) as [Hp|Hp]; [|reflexivity].
  destruct (i_def c s Hi t Ht) as [Hq|[Hq Hq2]]; [lia|].
  pose proof (i_st c s Hi _ Hq) as Hd2.
  rewrite step_ok by (assumption || lia).
  destruct (raw c _ a); [reflexivity|].
  replace (0 <? cell (m_default c) (cell (m_default c) t)) with false by lia. reflexivity.
Qed.

(** A state without default link. *)
Lemma lookup_plain c t a : zlen (m_base c) = zlen (m_default c) -> zlen (m_next c) = zlen (m_check c) ->
  c_bottom c <= zlen (m_check c) -> 1 <= t < zlen (m_default c) -> 1 <= a ->
  cell (m_default c) t <= 0 -> lookup c t a = Ok (look c t a).
Proof.
  intros Hl Hn Hb Hd Ha Hp. unfold lookup. rewrite step_ok by assumption. unfold look.
  destruct (raw c t a); [reflexivity|].
  replace (0 <? cell (m_default c) t) with false by lia. reflexivity.
Qed.

(** * Extension: more slots used by the new state [s] *)
Record ext (c c' : cdfa) (s : Z) : Prop := {
  e_base : forall t, 1 <= t < s -> cell (m_base c') t = cell (m_base c) t;
  e_def  : forall t, 1 <= t < s -> cell (m_default c') t = cell (m_default c) t;
  e_used : forall k, cell (m_check c) k <> 0 ->
             cell (m_check c') k = cell (m_check c) k /\ cell (m_next c') k = cell (m_next c) k;
  e_new  : forall k, cell (m_check c) k = 0 -> cell (m_check c') k = 0 \/ cell (m_check c') k = s;
  e_bot  : c_bottom c <= c_bottom c'
}.

Lemma ext_refl c s : ext c c s.
Proof. constructor; auto; lia. Qed.

Lemma ext_trans a b c s : s <> 0 -> ext a b s -> ext b c s -> ext a c s.
Proof.
  intros Hs [A1 A2 A3 A4 A5] [B1 B2 B3 B4 B5]. constructor.
  - intros t Ht. rewrite B1, A1 by assumption. reflexivity.
  - intros t Ht. rewrite B2, A2 by assumption. reflexivity.
  - intros k Hk. destruct (A3 k Hk) as [E1 E2]. destruct (B3 k) as [F1 F2]; [congruence|].
    split; congruence.
  - intros k Hk. destruct (A4 k Hk) as [E|E].
    + apply B4, E.
    + right. destruct (B3 k) as [F _]; [congruence|]. congruence.
  - lia.
Qed.

Lemma raw_ext c c' s t a : inv c s -> ext c c' s -> 1 <= t < s -> raw c' t a = raw c t a.
Proof.
  intros Hi He Ht. unfold raw. rewrite (e_base _ _ _ He t Ht).
  set (k := cell (m_base c) t + a). pose proof (e_bot _ _ _ He) as Hb.
  destruct (Z.eqb_spec (cell (m_check c) k) 0) as [Hz|Hz].
  - rewrite Hz. replace (0 =? t) with false by lia. rewrite !andb_false_r.
    destruct (e_new _ _ _ He k Hz) as [->| ->].
    + replace (0 =? t) with false by lia. rewrite !andb_false_r. reflexivity.
    + replace (s =? t) with false by lia. rewrite !andb_false_r. reflexivity.
  - destruct (e_used _ _ _ He k Hz) as [-> ->].
    assert (Hk : k < c_bottom c).
    { destruct (Z.lt_ge_cases k (c_bottom c)); [assumption|].
      exfalso. apply Hz, (i_free c s Hi). assumption. }
    replace (k <? c_bottom c') with true by lia.
    replace (k <? c_bottom c) with true by lia. reflexivity.
Qed.

Lemma look_ext c c' s t a : inv c s -> ext c c' s -> 1 <= t < s -> look c' t a = look c t a.
Proof.
  intros Hi He Ht. unfold look. rewrite (raw_ext c c' s) by assumption.
  destruct (raw c t a); [reflexivity|]. rewrite (e_def _ _ _ He t Ht).
  destruct (Z.ltb_spec 0 (cell (m_default c) t)) as [Hp|Hp]; [|reflexivity].
  destruct (i_def c s Hi t Ht) as [Hq|[Hq Hq2]]; [lia|].
  rewrite (raw_ext c c' s) by assumption. rewrite (e_def _ _ _ He) by assumption. reflexivity.
Qed.

(** * Cells of a row *)
Lemma indexed_in l : forall a0 a x, In (a, x) (indexed a0 l) -> a0 <= a < a0 + zlen l.
Proof.
  induction l as [|y l IH]; intros a0 a x H; simpl in H; [contradiction|].
  rewrite zlen_cons. pose proof (zlen_nonneg l). destruct H as [H|H].
  - injection H as <- <-. lia.
  - apply IH in H. lia.
Qed.

Lemma indexed_fun l : forall a0 a x y, In (a, x) (indexed a0 l) -> In (a, y) (indexed a0 l) -> x = y.
Proof.
  induction l as [|z l IH]; intros a0 a x y H1 H2; simpl in *; [contradiction|].
  destruct H1 as [H1|H1], H2 as [H2|H2].
  - congruence.
  - injection H1 as <- <-. apply indexed_in in H2. lia.
  - injection H2 as <- <-. apply indexed_in in H1. lia.
  - eapply IH; eauto.
Qed.

Lemma indexed_cell l : forall a0 a, a0 <= a < a0 + zlen l -> In (a, cell l (a - a0)) (indexed a0 l).
Proof.
  induction l as [|y l IH]; intros a0 a H.
  - rewrite zlen_nil in H. lia.
  - rewrite zlen_cons in H. simpl. destruct (Z.eqb_spec a a0) as [->|Hn].
    + left. f_equal. rewrite Z.sub_diag. reflexivity.
    + right. replace (cell (y :: l) (a - a0)) with (cell l (a - (a0 + 1))).
      * apply IH. lia.
      * unfold cell, znth. replace (a - a0 <? 0) with false by lia.
        replace (a - (a0 + 1) <? 0) with false by lia.
        replace (Z.to_nat (a - a0)) with (S (Z.to_nat (a - (a0 + 1)))) by lia. reflexivity.
Qed.

Section Place.
  Variables (c0 : cdfa) (s : Z) (r : refrow) (R : Z -> Z) (low : Z).
  Hypothesis Hs : 1 <= s.
  Hypothesis HR : forall c a, ext c0 c s -> inv c0 s -> 1 <= a ->
    zlen (m_default c) = zlen (m_default c0) -> zlen (m_base c) = zlen (m_base c0) ->
    zlen (m_next c) = zlen (m_check c) -> c_bottom c <= zlen (m_check c) ->
    ref_at c r a = Ok (R a).
  Hypothesis Hi0 : inv c0 s.

  Definition side (c : cdfa) : Prop :=
    ext c0 c s /\ zlen (m_default c) = zlen (m_default c0) /\ zlen (m_base c) = zlen (m_base c0) /\
    zlen (m_next c) = zlen (m_check c) /\ c_bottom c <= zlen (m_check c).

  Lemma ref_ok c a : side c -> 1 <= a -> ref_at c r a = Ok (R a).
  Proof. intros (H1 & H2 & H3 & H4 & H5) Ha. apply HR; auto. Qed.

  Lemma diff_bounds_ok c : side c -> forall l a0 acc, 1 <= a0 ->
    exists acc', diff_bounds c r (indexed a0 l) acc = Ok acc' /\
    (acc = None -> acc' = None -> forall a x, In (a, x) (indexed a0 l) -> R a = x) /\
    (acc = None -> forall f lv, acc' = Some (f, lv) ->
       a0 <= f <= lv /\ (exists x, In (f, x) (indexed a0 l)) /\
       forall a x, In (a, x) (indexed a0 l) -> R a <> x -> f <= a <= lv) /\
    (forall f lv, acc = Some (f, lv) -> lv < a0 -> exists lv', acc' = Some (f, lv') /\ lv <= lv' /\
       forall a x, In (a, x) (indexed a0 l) -> R a <> x -> a <= lv').
  Proof.
    intros Hc. induction l as [|x l IH]; intros a0 acc Ha; cbn [indexed diff_bounds].
    - exists acc. split; [reflexivity|]. repeat split.
      + intros -> _ a x [].
      + subst; discriminate.
      + subst; discriminate.
      + subst; discriminate.
      + subst; discriminate.
      + subst; discriminate.
      + intros f lv -> _. exists lv. split; [reflexivity|]. split; [lia|]. intros a x [].
    - rewrite ref_ok by assumption. cbn [bind]. destruct (Z.eqb_spec (R a0) x) as [E|E].
      + destruct (IH (a0 + 1) acc) as (acc' & H0 & H1 & H2 & H3); [lia|].
        exists acc'. split; [exact H0|]. repeat split.
        * intros Hn Hn' a y [Hy|Hy]; [congruence|]. eapply H1; eauto.
        * destruct (H2 H _ _ H4) as (G1 & _). lia.
        * destruct (H2 H _ _ H4) as (G1 & _). lia.
        * destruct (H2 H _ _ H4) as (G1 & (y & G2) & _). exists y. right. exact G2.
        * destruct (H2 H _ _ H4) as (G1 & _ & G3). destruct H5 as [Hy|Hy]; [congruence|].
          specialize (G3 _ _ Hy H6). lia.
        * destruct (H2 H _ _ H4) as (G1 & _ & G3). destruct H5 as [Hy|Hy]; [congruence|].
          specialize (G3 _ _ Hy H6). lia.
        * intros f lv -> Hlv. destruct (H3 f lv eq_refl) as (lv' & G1 & G2 & G3); [lia|].
          exists lv'. split; [exact G1|]. split; [lia|]. intros a y [Hy|Hy] Hne; [congruence|].
          eapply G3; eauto.
      + destruct (IH (a0 + 1) (match acc with None => Some (a0, a0) | Some (f, _) => Some (f, a0) end))
          as (acc' & H0 & H1 & H2 & H3); [lia|].
        exists acc'. split; [exact H0|]. split; [|split].
        * intros -> ->. destruct (H3 a0 a0 eq_refl) as (lv' & G1 & _); [lia|]. discriminate.
        * intros -> f lv ->. destruct (H3 a0 a0 eq_refl) as (lv' & G1 & G2 & G3); [lia|].
          injection G1 as -> ->. split; [lia|]. split; [exists x; left; reflexivity|].
          intros a y [Hy|Hy] Hne; [injection Hy as -> ->; lia|].
          pose proof (indexed_in _ _ _ _ Hy). specialize (G3 _ _ Hy Hne). lia.
        * intros f lv -> Hlv. destruct (H3 f a0 eq_refl) as (lv' & G1 & G2 & G3); [lia|].
          exists lv'. split; [exact G1|]. split; [lia|].
          intros a y [Hy|Hy] Hne; [injection Hy as -> ->; lia|]. eapply G3; eauto.
  Qed.

  Lemma slots_free_ok c off : side c -> forall l a0, 1 <= a0 ->
    (forall a x, In (a, x) (indexed a0 l) -> R a <> x -> 0 <= off + a < zlen (m_check c)) ->
    exists b, slots_free c r off (indexed a0 l) = Ok b /\
    (b = true <-> forall a x, In (a, x) (indexed a0 l) -> R a <> x -> cell (m_check c) (off + a) = 0).
  Proof.
    intros Hc. induction l as [|x l IH]; intros a0 Ha Hb; cbn [indexed slots_free].
    - exists true. split; [reflexivity|]. split; [intros _ a x []|reflexivity].
    - rewrite ref_ok by assumption. cbn [bind].
      destruct (IH (a0 + 1)) as (b & H1 & H2); [lia| |].
      { intros a y Hy. apply Hb. right. exact Hy. }
      destruct (Z.eqb_spec (R a0) x) as [E|E].
      + exists b. split; [exact H1|]. rewrite H2. split.
        * intros H a y [Hy|Hy] Hn; [congruence|]. eauto.
        * intros H a y Hy. apply H. right. exact Hy.
      + rewrite zread_cell by (apply (Hb a0 x); [left; reflexivity|exact E]). cbn [bind].
        destruct (Z.eqb_spec (cell (m_check c) (off + a0)) 0) as [Hz|Hz].
        * exists b. split; [exact H1|]. rewrite H2. split.
          -- intros H a y [Hy|Hy] Hn; [congruence|]. eauto.
          -- intros H a y Hy. apply H. right. exact Hy.
        * exists false. split; [reflexivity|]. split; [discriminate|].
          intros H. exfalso. apply Hz. apply (H a0 x); [left; reflexivity|exact E].
  Qed.

  Lemma write_cells_ok off : forall l a0 c, side c -> 1 <= a0 ->
    (forall a x, In (a, x) (indexed a0 l) -> R a <> x ->
       0 <= off + a < zlen (m_check c) /\ cell (m_check c) (off + a) = 0) ->
    exists c', write_cells c r off s (indexed a0 l) = Ok c' /\ side c' /\
      m_default c' = m_default c /\ m_base c' = m_base c /\ c_top c' = c_top c /\
      c_bottom c' = c_bottom c /\ zlen (m_check c') = zlen (m_check c) /\
      (forall a x, In (a, x) (indexed a0 l) -> R a <> x ->
         cell (m_check c') (off + a) = s /\ cell (m_next c') (off + a) = x) /\
      (forall k, (forall a x, In (a, x) (indexed a0 l) -> R a <> x -> k <> off + a) ->
         cell (m_check c') k = cell (m_check c) k /\ cell (m_next c') k = cell (m_next c) k).
  Proof.
    induction l as [|x l IH]; intros a0 c Hc Ha Hb; cbn [indexed write_cells].
    - exists c. split; [reflexivity|]. split; [exact Hc|]. repeat split; auto; contradiction.
    - rewrite ref_ok by assumption. cbn [bind]. destruct (Z.eqb_spec (R a0) x) as [E|E].
      + destruct (IH (a0 + 1) c) as (c' & G0 & G1 & G2 & G3 & G4 & G5 & G6 & G7 & G8); [assumption|lia| |].
        { intros a y Hy. apply Hb. right. exact Hy. }
        exists c'. split; [exact G0|]. split; [exact G1|].
        split; [exact G2|]. split; [exact G3|]. split; [exact G4|]. split; [exact G5|]. split; [exact G6|].
        split.
        * intros a y [Hy|Hy] Hn; [congruence|]. apply (G7 a y); assumption.
        * intros k Hk. apply G8. intros a y Hy. apply Hk. right. exact Hy.
      + destruct (Hb a0 x (or_introl eq_refl) E) as [Hr Hz].
        pose proof Hc as (Hx & Hl1 & Hl2 & Hl3 & Hl4).
        rewrite zwrite_ok by lia. cbn [bind]. rewrite zwrite_ok by lia. cbn [bind].
        set (c1 := mkC (m_default c) (m_base c) (upd (m_next c) (Z.to_nat (off + a0)) x)
                       (upd (m_check c) (Z.to_nat (off + a0)) s) (c_top c) (c_bottom c)).
        assert (Hc1 : side c1).
        { unfold side, c1; cbn [m_default m_base m_next m_check c_bottom]. rewrite !zlen_upd.
          repeat (split; [|try assumption]); try assumption.
          destruct Hx as [X1 X2 X3 X4 X5]. constructor; cbn [m_default m_base m_next m_check c_bottom]; auto.
          - intros k Hk. rewrite !cell_upd by lia. destruct (Z.eqb_spec k (off + a0)) as [->|Hn].
            + exfalso. destruct (X3 _ Hk). congruence.
            + apply X3, Hk.
          - intros k Hk. rewrite !cell_upd by lia. destruct (k =? off + a0); [right; reflexivity|].
            apply X4, Hk. }
        destruct (IH (a0 + 1) c1) as (c' & G0 & G1 & G2 & G3 & G4 & G5 & G6 & G7 & G8); [assumption|lia| |].
        { intros a y Hy Hn. pose proof (indexed_in _ _ _ _ Hy).
          destruct (Hb a y (or_intror Hy) Hn) as [B1 B2].
          unfold c1; cbn [m_check]. rewrite zlen_upd. split; [exact B1|].
          rewrite cell_upd by lia. replace (off + a =? off + a0) with false by lia. exact B2. }
        exists c'. split; [exact G0|]. split; [exact G1|]. split; [exact G2|]. split; [exact G3|].
        split; [exact G4|]. split; [exact G5|].
        split; [rewrite G6; unfold c1; cbn [m_check]; apply zlen_upd|]. split.
        * intros a y [Hy|Hy] Hn.
          -- injection Hy as <- <-. destruct (G8 (off + a0)) as [K1 K2].
             { intros a y Hy _. pose proof (indexed_in _ _ _ _ Hy). lia. }
             rewrite K1, K2. unfold c1; cbn [m_check m_next].
             rewrite !cell_upd by lia. rewrite Z.eqb_refl. auto.
          -- apply (G7 a y); assumption.
        * intros k Hk. destruct (G8 k) as [K1 K2].
          { intros a y Hy. apply Hk. right. exact Hy. }
          rewrite K1, K2. unfold c1; cbn [m_check m_next].
          rewrite !cell_upd by lia.
          replace (k =? off + a0) with false; [auto|].
          symmetry. apply Z.eqb_neq. apply (Hk a0 x); [left; reflexivity|exact E].
  Qed.

  Lemma advance_top_ok c : forall n t, t + Z.of_nat n = c_bottom c -> 0 <= t <= c_bottom c ->
    c_bottom c <= zlen (m_check c) ->
    exists t', advance_top n c t = Ok t' /\ 0 <= t' <= c_bottom c.
  Proof.
    induction n as [|n IH]; intros t Hn Ht Hb; cbn [advance_top].
    - exists t. split; [reflexivity|lia].
    - destruct (Z.ltb_spec t (c_bottom c)); [|exists t; split; [reflexivity|lia]].
      rewrite zread_cell by lia. cbn [bind].
      destruct (_ =? 0); [exists t; split; [reflexivity|lia]|].
      apply IH; lia.
  Qed.

  Lemma checkSpace_side c i : side c -> side (checkSpace c i) /\
    m_default (checkSpace c i) = m_default c /\ m_base (checkSpace c i) = m_base c /\
    (forall k, cell (m_check (checkSpace c i)) k = cell (m_check c) k) /\
    (forall k, cell (m_next (checkSpace c i)) k = cell (m_next c) k) /\
    c_top (checkSpace c i) = c_top c /\ c_bottom (checkSpace c i) = c_bottom c /\
    zlen (m_check c) <= zlen (m_check (checkSpace c i)) /\
    i + 1 <= zlen (m_check (checkSpace c i)).
  Proof.
    intros Hc. pose proof Hc as (Hx & Hl1 & Hl2 & Hl3 & Hl4). unfold checkSpace.
    destruct (Z.leb_spec (zlen (m_next c)) i).
    - unfold side. cbn [m_default m_base m_next m_check c_bottom c_top].
      rewrite !zlen_grow. split; [split; [|lia]|].
      + destruct Hx as [X1 X2 X3 X4 X5]. constructor; cbn [m_default m_base m_next m_check c_bottom]; auto.
        * intros k Hk. rewrite !cell_grow. auto.
        * intros k Hk. rewrite !cell_grow. auto.
      + split; [reflexivity|]. split; [reflexivity|].
        split; [intros; apply cell_grow|]. split; [intros; apply cell_grow|]. lia.
    - split; [exact Hc|]. repeat split; auto; lia.
  Qed.

  (** Result of placing a row: old states keep their entries, the new state has
      an entry exactly where the row differs from the reference. *)
  Definition placed (objvec : list Z) (c' : cdfa) : Prop :=
    ext c0 c' s /\ m_default c' = m_default c0 /\ zlen (m_base c') = zlen (m_base c0) /\
    zlen (m_next c') = zlen (m_check c') /\ 0 <= c_top c' <= c_bottom c' /\
    c_bottom c' <= zlen (m_check c') /\
    (forall k, c_bottom c' <= k -> cell (m_check c') k = 0) /\
    (forall a x, In (a, x) (cells objvec) ->
       raw c' s a = if R a =? x then None else Some x).

  Lemma place_row_ok objvec : s < zlen (m_base c0) -> zlen objvec < 2147483648 ->
    forall n c i, side c -> m_default c = m_default c0 -> m_base c = m_base c0 ->
    (forall k, cell (m_check c) k = cell (m_check c0) k) ->
    (forall k, cell (m_next c) k = cell (m_next c0) k) ->
    c_top c = c_top c0 -> c_bottom c = c_bottom c0 ->
    0 <= i -> i + Z.of_nat n = c_bottom c0 + 1 -> (1 <= n)%nat ->
    exists c', place_row n c r s i objvec = Ok c' /\ placed objvec c'.
  Proof.
    intros Hsb Hov. induction n as [|n IH]; intros c i Hc Hdf Hbs Hck Hnx Htp Hbt Hi Hn Hn1; [lia|].
    cbn [place_row]. unfold cells in *.
    destruct (diff_bounds_ok c Hc (tl objvec) 1 None) as (acc & H0 & H1 & H2 & _); [lia|].
    rewrite H0. cbn [bind]. pose proof Hc as (Hx & Hl1 & Hl2 & Hl3 & Hl4).
    pose proof (i_top c0 s Hi0) as Htb.
    destruct acc as [[f lv]|].
    - destruct (H2 eq_refl f lv eq_refl) as (B1 & (xf & B2) & B3). clear H1 H2.
      set (off := i - f). destruct (checkSpace_side c (off + lv + 1) Hc)
        as (S1 & S2 & S3 & S4 & S5 & S6 & S7 & S8 & S9).
      set (c1 := checkSpace c (off + lv + 1)) in *.
      destruct (slots_free_ok c1 off S1 (tl objvec) 1) as (b & F1 & F2); [lia| |].
      { intros a x Hin Hne. specialize (B3 a x Hin Hne). lia. }
      rewrite F1. cbn [bind]. destruct b.
      + destruct (write_cells_ok off (tl objvec) 1 c1 S1) as
          (c2 & W0 & W1 & W2 & W3 & W4 & W5 & W6 & W7 & W8); [lia| |].
        { intros a x Hin Hne. pose proof (B3 a x Hin Hne). split; [lia|].
          apply (proj1 F2 eq_refl a x Hin Hne). }
        rewrite W0. cbn [bind].
        pose proof W1 as (Wx & Wl1 & Wl2 & Wl3 & Wl4).
        rewrite (zwrite_ok (m_base c2)) by lia. cbn [bind].
        set (bot := Z.max (c_bottom c2) (off + lv + 1)).
        set (c3 := mkC _ _ _ _ _ _).
        assert (Hbot : bot <= zlen (m_check c3)) by (unfold c3, bot; cbn [m_check]; lia).
        destruct (advance_top_ok c3 (Z.to_nat (bot - c_top c3)) (c_top c3)) as (t & T1 & T2).
        { unfold c3; cbn [c_bottom c_top]. unfold bot. lia. }
        { unfold c3; cbn [c_bottom c_top]. unfold bot. lia. }
        { unfold c3 in *; cbn [c_bottom m_check] in *. exact Hbot. }
        rewrite T1. cbn [bind]. eexists. split; [reflexivity|].
        unfold c3 in *; cbn [m_default m_base m_next m_check c_top c_bottom] in *.
        unfold placed. cbn [m_default m_base m_next m_check c_top c_bottom].
        split; [|split; [congruence|split; [rewrite zlen_upd; lia|split; [lia|split; [exact T2|split; [exact Hbot|split]]]]]].
        * eapply ext_trans; [lia|exact Wx|].
          constructor; cbn [m_default m_base m_next m_check c_top c_bottom]; auto.
          -- intros t0 Ht0. rewrite cell_upd by lia. replace (t0 =? s) with false by lia. reflexivity.
          -- unfold bot. lia.
        * intros k Hk. destruct (W8 k) as [K _].
          { intros a x Hin Hne. specialize (B3 a x Hin Hne). unfold bot in Hk. lia. }
          rewrite K, S4, Hck. apply (i_free c0 s Hi0). unfold bot in Hk. lia.
        * intros a x Hin. unfold raw. cbn [m_default m_base m_next m_check c_top c_bottom].
          rewrite cell_upd by lia. rewrite Z.eqb_refl.
          destruct (Z.eqb_spec (R a) x) as [E|E].
          -- destruct (W8 (off + a)) as [K _].
             { intros a' x' Hin' Hne' Heq. assert (a' = a) by lia. subst a'.
               rewrite (indexed_fun _ _ _ _ _ Hin Hin') in E. contradiction. }
             rewrite K, S4, Hck. pose proof (i_own c0 s Hi0 (off + a)).
             replace (cell (m_check c0) (off + a) =? s) with false by lia.
             rewrite andb_false_r. reflexivity.
          -- destruct (W7 a x Hin E) as [K1 K2]. rewrite K1, K2, Z.eqb_refl.
             specialize (B3 a x Hin E).
             replace (0 <=? off + a) with true by lia.
             replace (off + a <? bot) with true by (unfold bot; lia). reflexivity.
      + (* slot taken: next position *)
        destruct n as [|n].
        * exfalso. assert (i = c_bottom c0) by lia. subst i.
          assert (false = true) as HF; [|discriminate].
          apply F2. intros a x Hin Hne. specialize (B3 a x Hin Hne).
          rewrite S4, Hck. apply (i_free c0 s Hi0). unfold off. lia.
        * apply IH; try congruence; try lia; try assumption.
    - rewrite (zwrite_ok (m_base c)) by lia. cbn [bind]. eexists. split; [reflexivity|].
      unfold placed. cbn [m_default m_base m_next m_check c_top c_bottom].
      split; [|split; [congruence|split; [rewrite zlen_upd; lia|split; [exact Hl3|split; [lia|split; [exact Hl4|split]]]]]].
      + eapply ext_trans; [lia|exact Hx|].
        constructor; cbn [m_default m_base m_next m_check c_top c_bottom]; auto; [|lia].
        intros t0 Ht0. rewrite cell_upd by lia. replace (t0 =? s) with false by lia. reflexivity.
      + intros k Hk. rewrite Hck. apply (i_free c0 s Hi0). lia.
      + intros a x Hin. unfold raw. cbn [m_default m_base m_next m_check c_top c_bottom].
        rewrite cell_upd by lia. rewrite Z.eqb_refl.
        rewrite (H1 eq_refl eq_refl a x Hin). rewrite Z.eqb_refl.
        pose proof (indexed_in _ _ _ _ Hin) as Ha.
        assert (zlen (tl objvec) <= zlen objvec).
        { destruct objvec as [|? ?]; cbn [tl]; [lia|rewrite zlen_cons; lia]. }
        replace (0 <=? INT_MIN + a) with false by (unfold INT_MIN; lia). reflexivity.
  Qed.
End Place.

(** * Adding a row *)
Lemma most_frequent_nonneg vec : forall n a most frq, 0 <= a -> 0 <= frq ->
  0 <= snd (most_frequent n a vec most frq).
Proof.
  induction n as [|n IH]; intros a most frq Ha Hf; cbn [most_frequent]; [exact Hf|].
  destruct (most <? count_z a vec); apply IH; lia.
Qed.

Lemma compareState_ok c s i vec : inv c s -> 1 <= i < s ->
  exists b, compareState c i vec = Ok b /\ (b = true -> cell (m_default c) i <= 0).
Proof.
  intros Hi Hs. unfold compareState. rewrite zread_cell by (pose proof (i_st c s Hi i Hs); lia).
  cbn [bind]. destruct (Z.ltb_spec 0 (cell (m_default c) i)).
  - exists false. split; [reflexivity|discriminate].
  - assert (G : forall l a0 k, 1 <= a0 -> exists b, compare_cells c i (indexed a0 l) k = Ok b).
    { induction l as [|x l IH]; intros a0 k Ha; cbn [indexed compare_cells]; [eauto|].
      rewrite (lookup_ok c s) by assumption. cbn [bind].
      destruct (_ <=? 0); [eauto|]. apply IH. lia. }
    destruct (G (tl vec) 1 10) as (b & Hb); [lia|]. exists b. split; [exact Hb|lia].
Qed.

Lemma find_similar_ok c s vec : inv c s -> forall n i, 1 <= i -> i + Z.of_nat n = s ->
  exists o, find_similar n c i vec = Ok o /\
    (forall j, o = Some j -> 1 <= j < s /\ cell (m_default c) j <= 0).
Proof.
  intros Hi. induction n as [|n IH]; intros i H1 H2; cbn [find_similar].
  - exists None. split; [reflexivity|discriminate].
  - destruct (compareState_ok c s i vec Hi) as (b & -> & Hb); [lia|]. cbn [bind]. destruct b.
    + exists (Some i). split; [reflexivity|]. intros j [= <-]. split; [lia|auto].
    + apply IH; lia.
Qed.

Definition with_default (c : cdfa) (s x : Z) : cdfa :=
  mkC (upd (m_default c) (Z.to_nat s) x) (m_base c) (m_next c) (m_check c) (c_top c) (c_bottom c).

Lemma inv_with_default c s x : inv c s -> 1 <= s < zlen (m_default c) -> inv (with_default c s x) s.
Proof.
  intros [A1 A2 A3 A4 A5 A6 A7 A8] Hs. unfold with_default.
  constructor; cbn [m_default m_base m_next m_check c_top c_bottom]; rewrite ?zlen_upd; auto.
  intros t Ht. rewrite !cell_upd by lia. replace (t =? s) with false by lia.
  destruct (A8 t Ht) as [E|[E1 E2]]; [left; exact E|right].
  replace (cell (m_default c) t =? s) with false by lia. auto.
Qed.

(** The row of [s] after it has been placed against a reference row. *)
Definition row_of (c : cdfa) (s : Z) (objvec : list Z) : Prop :=
  forall a, 1 <= a < zlen objvec -> look c s a = cell objvec a.

Lemma cells_in objvec a : 1 <= a < zlen objvec -> In (a, cell objvec a) (cells objvec).
Proof.
  intros H. unfold cells. destruct objvec as [|x l]; [rewrite zlen_nil in H; lia|].
  rewrite zlen_cons in H. cbn [tl]. pose proof (indexed_cell l 1 a) as K.
  replace (cell (x :: l) a) with (cell l (a - 1)); [apply K; lia|].
  unfold cell, znth. replace (a <? 0) with false by lia. replace (a - 1 <? 0) with false by lia.
  replace (Z.to_nat a) with (S (Z.to_nat (a - 1))) by lia. reflexivity.
Qed.

Lemma place_done c0 s df r R objvec :
  1 <= s < zlen (m_default c0) -> zlen objvec < 2147483648 -> inv c0 s ->
  cell (m_default c0) s = df ->
  (df <= 0 \/ (1 <= df < s /\ cell (m_default c0) df <= 0)) ->
  (forall a, 1 <= a -> R a = if 0 <? df then look c0 df a else - df) ->
  r = (if 0 <? df then RState df else RConst (- df)) ->
  exists c', place_row (loop_count c0) c0 r s (c_top c0) objvec = Ok c' /\
    inv c' (s + 1) /\ (forall t a, 1 <= t < s -> look c' t a = look c0 t a) /\
    row_of c' s objvec /\ zlen (m_default c') = zlen (m_default c0).
Proof.
  intros Hs Hov Hi Hdf Hdef HR Hr.
  pose proof (i_top c0 s Hi) as Ht. pose proof (i_len c0 s Hi) as Hl.
  destruct (place_row_ok c0 s r R) with (objvec := objvec) (n := loop_count c0) (c := c0) (i := c_top c0)
    as (c' & P0 & P).
  - lia.
  - intros c a He _ Ha L1 L2 L3 L4. subst r. rewrite HR by exact Ha.
    destruct (Z.ltb_spec 0 df) as [Hp|Hp]; [|reflexivity].
    destruct Hdef as [?|[D1 D2]]; [lia|]. cbn [ref_at].
    rewrite lookup_plain; try assumption; try lia.
    + rewrite (look_ext c0 c s) by assumption. reflexivity.
    + rewrite (e_def _ _ _ He) by assumption. exact D2.
  - exact Hi.
  - lia.
  - exact Hov.
  - split; [apply ext_refl|]. split; [reflexivity|]. split; [reflexivity|].
    split; [apply (i_nc c0 s Hi)|apply (i_bot c0 s Hi)].
  - reflexivity.
  - reflexivity.
  - reflexivity.
  - reflexivity.
  - reflexivity.
  - reflexivity.
  - lia.
  - unfold loop_count. lia.
  - unfold loop_count. lia.
  - exists c'. split; [exact P0|].
    destruct P as (He & P1 & P2 & P3 & P4 & P5 & P6 & P7).
    split; [|split; [|split; [|rewrite P1; reflexivity]]].
    + constructor.
      * rewrite P1, P2. exact Hl.
      * exact P3.
      * exact P4.
      * exact P5.
      * exact P6.
      * intros k. pose proof (i_own c0 s Hi k) as Ho.
        destruct (Z.eq_dec (cell (m_check c0) k) 0) as [Hz|Hz].
        -- destruct (e_new _ _ _ He k Hz) as [->| ->]; lia.
        -- destruct (e_used _ _ _ He k Hz) as [-> _]. lia.
      * intros t Ht'. rewrite P1. destruct (Z.eq_dec t s) as [->|Hn]; [lia|].
        apply (i_st c0 s Hi). lia.
      * intros t Ht'. rewrite P1. destruct (Z.eq_dec t s) as [->|Hn].
        -- rewrite Hdf. destruct Hdef as [?|[D1 D2]]; [left; assumption|right; split; [lia|assumption]].
        -- destruct (i_def c0 s Hi t) as [E|[E1 E2]]; [lia|left; exact E|right; split; [lia|exact E2]].
    + intros t a Ht'. apply (look_ext c0 c' s); assumption.
    + intros a Ha. pose proof (P7 a _ (cells_in objvec a Ha)) as Hraw. unfold look. rewrite Hraw.
      destruct (Z.eqb_spec (R a) (cell objvec a)) as [E|E]; [|reflexivity].
      rewrite P1, Hdf. rewrite <- E, HR by lia.
      destruct (Z.ltb_spec 0 df) as [Hp|Hp]; [|reflexivity].
      destruct Hdef as [?|[D1 D2]]; [lia|].
      rewrite (raw_ext c0 c' s) by assumption. unfold look.
      destruct (raw c0 df a); [reflexivity|].
      replace (0 <? cell (m_default c0) df) with false by lia. reflexivity.
Qed.

Lemma look_with_default c s x t a : inv c s -> 1 <= s < zlen (m_default c) -> 1 <= t < s ->
  look (with_default c s x) t a = look c t a.
Proof.
  intros Hi Hs Ht. apply (look_ext c _ s); [exact Hi| |exact Ht].
  unfold with_default. constructor; cbn [m_default m_base m_next m_check c_top c_bottom]; auto; [|lia].
  intros t' Ht'. rewrite cell_upd by lia. replace (t' =? s) with false by lia. reflexivity.
Qed.

Lemma createNewArea_ok c s base objvec : inv c s -> 1 <= s < zlen (m_default c) ->
  zlen objvec < 2147483648 -> 0 <= base ->
  exists c', createNewArea c base s objvec = Ok c' /\
    inv c' (s + 1) /\ (forall t a, 1 <= t < s -> look c' t a = look c t a) /\
    row_of c' s objvec /\ zlen (m_default c') = zlen (m_default c).
Proof.
  intros Hi Hs Hov Hb. unfold createNewArea. rewrite zwrite_ok by lia. cbn [bind].
  fold (with_default c s (- base)).
  destruct (place_done (with_default c s (- base)) s (- base) (RConst base) (fun _ => base) objvec)
    as (c' & P1 & P2 & P3 & P4 & P5).
  - unfold with_default; cbn [m_default]. rewrite zlen_upd. exact Hs.
  - exact Hov.
  - apply inv_with_default; assumption.
  - unfold with_default; cbn [m_default]. rewrite cell_upd by lia. rewrite Z.eqb_refl. reflexivity.
  - left. lia.
  - intros a _. replace (0 <? - base) with false by lia. lia.
  - replace (0 <? - base) with false by lia. f_equal. lia.
  - exists c'. split; [exact P1|]. split; [exact P2|]. split; [|split; [exact P4|]].
    + intros t a Ht. rewrite P3 by exact Ht. apply look_with_default; assumption.
    + rewrite P5. unfold with_default; cbn [m_default]. apply zlen_upd.
Qed.

Lemma createLinkArea_ok c s base objvec : inv c s -> 1 <= s < zlen (m_default c) ->
  zlen objvec < 2147483648 -> 1 <= base < s -> cell (m_default c) base <= 0 ->
  exists c', createLinkArea c base s objvec = Ok c' /\
    inv c' (s + 1) /\ (forall t a, 1 <= t < s -> look c' t a = look c t a) /\
    row_of c' s objvec /\ zlen (m_default c') = zlen (m_default c).
Proof.
  intros Hi Hs Hov Hb Hp. unfold createLinkArea. rewrite zwrite_ok by lia. cbn [bind].
  fold (with_default c s base).
  destruct (place_done (with_default c s base) s base (RState base)
              (fun a => look (with_default c s base) base a) objvec)
    as (c' & P1 & P2 & P3 & P4 & P5).
  - unfold with_default; cbn [m_default]. rewrite zlen_upd. exact Hs.
  - exact Hov.
  - apply inv_with_default; assumption.
  - unfold with_default; cbn [m_default]. rewrite cell_upd by lia. rewrite Z.eqb_refl. reflexivity.
  - right. split; [exact Hb|]. unfold with_default; cbn [m_default]. rewrite cell_upd by lia.
    replace (base =? s) with false by lia. exact Hp.
  - intros a _. replace (0 <? base) with true by lia. reflexivity.
  - replace (0 <? base) with true by lia. reflexivity.
  - exists c'. split; [exact P1|]. split; [exact P2|]. split; [|split; [exact P4|]].
    + intros t a Ht. rewrite P3 by exact Ht. apply look_with_default; assumption.
    + rewrite P5. unfold with_default; cbn [m_default]. apply zlen_upd.
Qed.

Lemma addEdge_ok c s objvec max : inv c s -> 1 <= s <= max -> zlen objvec < 2147483648 ->
  (forall q, In q objvec -> 0 <= q <= max) ->
  exists c', addEdge c s objvec max = Ok c' /\
    inv c' (s + 1) /\ (forall t a, 1 <= t < s -> look c' t a = look c t a) /\
    row_of c' s objvec /\ zlen (m_default c') = Z.max (zlen (m_default c)) (max + 1).
Proof.
  intros Hi Hs Hov Hq. unfold addEdge.
  set (c0 := if _ <=? max then _ else c).
  assert (H0 : inv c0 s /\ (forall t a, 1 <= t < s -> look c0 t a = look c t a) /\
               zlen (m_default c0) = Z.max (zlen (m_default c)) (max + 1)).
  { unfold c0. pose proof (i_len c s Hi) as Hl. destruct (Z.leb_spec (zlen (m_default c)) max).
    - split; [|split].
      + destruct Hi as [A1 A2 A3 A4 A5 A6 A7 A8].
        constructor; cbn [m_default m_base m_next m_check c_top c_bottom]; rewrite ?zlen_grow; auto.
        * lia.
        * intros t Ht. specialize (A7 t Ht). lia.
        * intros t Ht. rewrite !cell_grow. auto.
      + intros t a Ht. apply (look_ext c _ s); [exact Hi| |exact Ht].
        constructor; cbn [m_default m_base m_next m_check c_top c_bottom]; auto; try lia.
        * intros; apply cell_grow.
        * intros; apply cell_grow.
      + cbn [m_default]. rewrite zlen_grow. lia.
    - split; [exact Hi|]. split; [reflexivity|]. lia. }
  clearbody c0. destruct H0 as (I0 & L0 & Z0).
  assert (Hvs : exists size frq, getValidSize c0 objvec = Ok (size, frq) /\ 0 <= frq).
  { unfold getValidSize.
    replace (forallb _ objvec) with true.
    - pose proof (most_frequent_nonneg objvec (S (List.length (m_default c0))) 0 0 0) as Hm.
      destruct (most_frequent _ 0 objvec 0 0) as [most frq]. cbn [snd] in Hm.
      eexists _, _. split; [reflexivity|lia].
    - symmetry. apply forallb_forall. intros q Hin. specialize (Hq q Hin).
      unfold zlen in Z0. lia. }
  destruct Hvs as (size & frq & -> & Hf). cbn [bind].
  destruct (size <=? 10).
  - destruct (createNewArea_ok c0 s frq objvec I0) as (c' & P1 & P2 & P3 & P4 & P5); try lia.
    exists c'. split; [exact P1|]. split; [exact P2|]. split; [|split; [exact P4|lia]].
    intros t a Ht. rewrite P3, L0 by exact Ht. reflexivity.
  - destruct (find_similar_ok c0 s objvec I0 (Z.to_nat (s - 1)) 1) as (o & Ho & Hj); [lia|lia|].
    rewrite Ho. cbn [bind]. destruct o as [j|].
    + destruct (Hj j eq_refl) as [J1 J2].
      destruct (createLinkArea_ok c0 s j objvec I0) as (c' & P1 & P2 & P3 & P4 & P5); try lia.
      exists c'. split; [exact P1|]. split; [exact P2|]. split; [|split; [exact P4|lia]].
      intros t a Ht. rewrite P3, L0 by exact Ht. reflexivity.
    + destruct (createNewArea_ok c0 s frq objvec I0) as (c' & P1 & P2 & P3 & P4 & P5); try lia.
      exists c'. split; [exact P1|]. split; [exact P2|]. split; [|split; [exact P4|lia]].
      intros t a Ht. rewrite P3, L0 by exact Ht. reflexivity.
Qed.

(** What the callers guarantee of the rows they add: row number [s] is added
    when [max >= s] states are known and mentions only those. *)
Fixpoint rows_ok (s : Z) (rows : list (list Z * Z)) : Prop :=
  match rows with
  | [] => True
  | (row, max) :: rows' =>
      s <= max /\ zlen row < 2147483648 /\ (forall q, In q row -> 0 <= q <= max) /\
      rows_ok (s + 1) rows'
  end.

Lemma add_rows_gen : forall rows c s, inv c s -> 1 <= s -> rows_ok s rows ->
  exists c', add_rows c s rows = Ok c' /\ inv c' (s + zlen rows) /\
    (forall t a, 1 <= t < s -> look c' t a = look c t a) /\
    (forall t row max, nth_error rows t = Some (row, max) ->
       forall a, 1 <= a < zlen row -> look c' (s + Z.of_nat t) a = cell row a).
Proof.
  induction rows as [|[row max] rows IH]; intros c s Hi Hs Hr; cbn [add_rows].
  - exists c. split; [reflexivity|]. rewrite zlen_nil, Z.add_0_r. split; [exact Hi|].
    split; [reflexivity|]. intros [|t] row max H; discriminate.
  - destruct Hr as (R1 & R2 & R3 & R4).
    destruct (addEdge_ok c s row max Hi) as (c1 & E1 & E2 & E3 & E4 & E5); try lia; try assumption.
    rewrite E1. cbn [bind].
    destruct (IH c1 (s + 1) E2) as (c2 & F1 & F2 & F3 & F4); [lia|exact R4|].
    exists c2. split; [exact F1|]. rewrite zlen_cons. split; [replace (s + (zlen rows + 1)) with (s + 1 + zlen rows) by lia; exact F2|].
    split.
    + intros t a Ht. rewrite F3 by lia. apply E3, Ht.
    + intros [|t] row' max' H a Ha.
      * cbn in H. injection H as <- <-. rewrite Z.add_0_r. rewrite F3 by lia. apply E4, Ha.
      * cbn in H. replace (s + Z.of_nat (S t)) with (s + 1 + Z.of_nat t) by lia.
        eapply F4; eauto.
Qed.

Lemma inv_empty : inv empty_cdfa 1.
Proof.
  assert (E : forall k, cell (@nil Z) k = 0).
  { intros k. apply cell_out. unfold zlen; cbn [List.length]. lia. }
  constructor; cbn [empty_cdfa m_default m_base m_next m_check c_top c_bottom];
    intros; rewrite ?E; unfold zlen; cbn [List.length]; lia.
Qed.

(** Reading back the table gives the rows that were stored. *)
Theorem compress_lossless : forall rows, rows_ok 1 rows ->
  exists c, add_rows empty_cdfa 1 rows = Ok c /\
    forall t row max a, nth_error rows t = Some (row, max) -> 1 <= a < zlen row ->
      lookup c (Z.of_nat t + 1) a = zread row a.
Proof.
  intros rows Hr. destruct (add_rows_gen rows empty_cdfa 1 inv_empty) as (c & C1 & C2 & _ & C4); [lia|exact Hr|].
  exists c. split; [exact C1|]. intros t row max a Ht Ha.
  assert (Htl : Z.of_nat t < zlen rows).
  { assert (nth_error rows t <> None) as Hn by congruence. apply nth_error_Some in Hn. unfold zlen. lia. }
  rewrite (lookup_ok c (1 + zlen rows)) by (assumption || lia).
  rewrite (zread_cell row) by lia. f_equal. rewrite <- (C4 t row max Ht a Ha). f_equal. lia.
Qed.

(** Input 0 and state 0 are never stored: they always lead to state 0. *)
Lemma lookup_zero c s a : s = 0 \/ a = 0 -> lookup c s a = Ok 0.
Proof. intros [->| ->]; unfold lookup; cbn [nextState]; [reflexivity|]. rewrite orb_true_r. reflexivity. Qed.
