(** The table of constraints after a history of observations, and the
    observations made on a document. *)
From Verif Require Import Base Spec PosSpec Util Lexer LexProof LexDoc LexMain QueryClass AutoSpec TrainSpec Dfa Constraint Stream TreeSem TreeInv.
Open Scope Z_scope.

(** * The table *)
Definition obs := list (ckey * Z).
Definition adds (junk : bytes) (h : obs) (ct : ctable) : res ctable :=
  foldM (fun ct p => addConstraintInfo junk ct (snd p) (fst p)) h ct.
Definition key_of (ci : cinfo) : ckey := match ci_name ci with Some n => CKey n | None => CArr end.
Definition ckey_eq_dec (a b : ckey) : {a = b} + {a <> b}.
Proof. decide equality. apply bytes_eq_dec. Defined.

Lemma NoDup_app_snoc {A} (l : list A) x : NoDup l -> ~ In x l -> NoDup (l ++ [x]).
Proof. intros H1 H2. apply (NoDup_Add (Add_app x l [])). rewrite app_nil_r. auto. Qed.

Section Table.
  Variable junk : bytes.
  Definition named (k : ckey) : Prop := match k with CKey n => n <> junk /\ zlen n <= 98 | CArr => True end.

  Lemma named_fine k : named k -> k <> CKey junk.
  Proof. destruct k as [n|]; cbn; [intros [H _] E; congruence|discriminate]. Qed.
  Lemma match_key k ci : k <> CKey junk -> entry_match junk k ci = true <-> k = key_of ci.
  Proof.
    unfold entry_match, key_of, entry_name, is_array_entry, named. destruct ci as [[n|] ss]; cbn [ci_name]; destruct k as [m|]; intros H1.
    - rewrite beq_true. split; congruence.
    - split; discriminate.
    - rewrite beq_true. split; [intros ->; congruence|discriminate].
    - split; auto.
  Qed.
  Lemma match_no k ci : k <> CKey junk -> entry_match junk k ci = false <-> k <> key_of ci.
  Proof.
    intros H1. pose proof (match_key k ci H1) as H. destruct (entry_match junk k ci); split; intros G; try congruence; [exfalso; apply G, H; reflexivity|intros E; apply H in E; congruence].
  Qed.

  (** What an entry says about a history. *)
  Definition entry_ok (h : obs) (ci : cinfo) : Prop :=
    key_of ci <> CKey junk /\ NoDup (ci_states ci) /\ ci_states ci <> [] /\ forall s, In s (ci_states ci) <-> In (key_of ci, s) h.
  Record table_ok (h : obs) (ct : ctable) : Prop := mkTab {
    tb_keys : NoDup (map key_of ct);
    tb_entries : Forall (entry_ok h) ct;
    tb_all : forall k s, In (k, s) h -> In k (map key_of ct)
  }.

  Lemma existsb_eqb s l : existsb (Z.eqb s) l = true <-> In s l.
  Proof.
    rewrite existsb_exists. split.
    - intros (x & H & E). apply Z.eqb_eq in E. subst. exact H.
    - intros H. exists s. split; [exact H|apply Z.eqb_refl].
  Qed.
  Lemma small_length l : NoDup l -> (forall s, In s l -> 0 <= s < 100) -> forall s, 0 <= s < 100 -> ~ In s l -> zlen l < 100.
  Proof.
    intros Hnd Hb s Hs Hn. assert (Hi : incl (s :: l) (map Z.of_nat (seq 0 100))).
    { intros x [<-|Hx]; apply in_map_iff; [exists (Z.to_nat s)|exists (Z.to_nat x); apply Hb in Hx]; (split; [lia|apply in_seq; lia]). }
    apply NoDup_incl_length in Hi; [|constructor; assumption]. rewrite map_length, seq_length in Hi. cbn in Hi. unfold zlen. lia.
  Qed.

  Lemma add_entry_ok h k s : named k -> 0 <= s < 100 -> forall ct n,
    NoDup (map key_of ct) -> Forall (entry_ok h) ct -> (forall k s, In (k, s) h -> 0 <= s < 100) ->
    (~ In k (map key_of ct) -> (forall s, ~ In (k, s) h)) ->
    (~ In k (map key_of ct) -> n + zlen ct < 1000) ->
    exists ct', add_entry junk ct n k s = Ok ct' /\ Forall (entry_ok (h ++ [(k, s)])) ct' /\
      map key_of ct' = if in_dec ckey_eq_dec k (map key_of ct) then map key_of ct else map key_of ct ++ [k].
  Proof.
    intros Hk Hs. induction ct as [|ci ct IH]; intros n Hnd Hf Hb Hnew Hn.
    - cbn [add_entry map]. rewrite zlen_nil in Hn. specialize (Hn (fun x => x)). specialize (Hnew (fun x => x)).
      destruct (Z.leb_spec MAX_CONSTRAINT n); [unfold MAX_CONSTRAINT in *; lia|].
      assert (E : exists ci, match k with
             | CKey name => nm <- strcopy MAX_KEY_TEXT name ;; Ok [mkCinfo (Some nm) [s]]
             | CArr => Ok [mkCinfo None [s]]
             end = Ok [ci] /\ key_of ci = k /\ ci_states ci = [s]).
      { destruct k as [nm|]; [|eexists; repeat split]. unfold strcopy. destruct Hk as [_ Hk].
        destruct (Z.ltb_spec MAX_KEY_TEXT (zlen nm + 2)); [unfold MAX_KEY_TEXT in *; lia|]. cbn. eexists. repeat split. }
      destruct E as (ci & E & Ek & Es). exists [ci]. split; [exact E|]. split.
      + constructor; [|constructor]. unfold entry_ok. rewrite Ek, Es. split; [apply named_fine, Hk|]. split; [repeat constructor; auto|].
        split; [discriminate|]. intros s'. rewrite in_app_iff. split.
        * intros [<-|[]]. right. left. reflexivity.
        * intros [H'|[H'|[]]]; [exfalso; eapply Hnew; eauto|]. injection H' as <-. left. reflexivity.
      + cbn [map app]. rewrite Ek. destruct (in_dec ckey_eq_dec k []) as [[]|]. reflexivity.
    - cbn [add_entry map] in *. apply Forall_cons_iff in Hf as [(E1 & E2 & E3 & E4) Hf]. inversion Hnd as [|? ? Hni Hnd']; subst.
      assert (Hmono : forall c, entry_ok h c -> key_of c <> k -> entry_ok (h ++ [(k, s)]) c).
      { intros c (A1 & A2 & A3 & A4) Hne. repeat split; auto.
        - intros Hi. apply in_or_app. left. apply A4, Hi.
        - intros Hi. apply in_app_or in Hi as [Hi|[Hi|[]]]; [apply A4, Hi|]. injection Hi as Hi _. congruence. }
      destruct (entry_match junk k ci) eqn:Em.
      + apply match_key in Em; [|apply named_fine, Hk]. subst k. clear IH.
        assert (Hrest : Forall (entry_ok (h ++ [(key_of ci, s)])) ct).
        { apply Forall_forall. intros c Hc. rewrite Forall_forall in Hf. apply Hmono; [auto|]. intros E. apply Hni. rewrite <- E. apply in_map, Hc. }
        assert (Ekk : forall l, map key_of (mkCinfo (ci_name ci) l :: ct) = if in_dec ckey_eq_dec (key_of ci) (key_of ci :: map key_of ct) then key_of ci :: map key_of ct else (key_of ci :: map key_of ct) ++ [key_of ci]).
        { intros l. destruct (in_dec _ _ _) as [_|Hx]; [reflexivity|exfalso; apply Hx; left; reflexivity]. }
        unfold add_state. destruct (existsb (Z.eqb s) (ci_states ci)) eqn:Ex.
        * apply existsb_eqb in Ex. cbn [bind]. exists (ci :: ct). split; [reflexivity|]. split; [|destruct ci; apply Ekk].
          constructor; [|exact Hrest]. repeat split; auto; intros Hi.
          -- apply in_or_app. left. apply E4, Hi.
          -- apply in_app_or in Hi as [Hi|[Hi|[]]]; [apply E4, Hi|]. injection Hi as <-. exact Ex.
        * assert (Hns : ~ In s (ci_states ci)) by (intros Hi; apply existsb_eqb in Hi; congruence).
          assert (Hsz : zlen (ci_states ci) < 100).
          { apply (small_length _ E2) with s; auto. intros x Hx. apply (Hb (key_of ci)). apply E4, Hx. }
          destruct (Z.leb_spec MAX_STATES (zlen (ci_states ci))); [unfold MAX_STATES in *; lia|]. cbn [bind].
          eexists. split; [reflexivity|]. split; [|apply Ekk]. constructor; [|exact Hrest].
          change (key_of {| ci_name := ci_name ci; ci_states := ci_states ci ++ [s] |}) with (key_of ci).
          unfold entry_ok. change (key_of {| ci_name := ci_name ci; ci_states := ci_states ci ++ [s] |}) with (key_of ci). cbn [ci_states].
          split; [exact E1|]. split; [apply NoDup_app_snoc; assumption|]. split; [destruct (ci_states ci); discriminate|].
          intros s'. rewrite !in_app_iff, E4. cbn. split; intros [Hi|[Hi|[]]]; auto; [subst; auto|]. injection Hi as <-. auto.
      + apply match_no in Em; [|apply named_fine, Hk].
        destruct (IH (n + 1) Hnd' Hf Hb) as (ct' & Ea & Ef & Ek).
        { intros Hx. apply Hnew. intros [H|H]; [congruence|auto]. }
        { intros Hx. specialize (Hn ltac:(intros [H|H]; [congruence|auto])). rewrite zlen_cons in Hn. lia. }
        rewrite Ea. cbn [bind]. exists (ci :: ct'). split; [reflexivity|]. split.
        * constructor; [|exact Ef]. apply Hmono; [repeat split; auto; apply E4|congruence].
        * cbn [map]. rewrite Ek. destruct (in_dec ckey_eq_dec k (map key_of ct)) as [Hi|Hi];
            destruct (in_dec ckey_eq_dec k (key_of ci :: map key_of ct)) as [Hj|Hj]; auto.
          -- exfalso. apply Hj. right. exact Hi.
          -- exfalso. destruct Hj as [Hj|Hj]; [congruence|auto].
  Qed.

  (** All histories. *)
  Lemma adds_ok : forall h2 h1 ct ks, table_ok h1 ct -> Forall (fun p => named (fst p) /\ 0 <= snd p < 100) (h1 ++ h2) ->
    incl (map fst (h1 ++ h2)) ks -> zlen ks <= 1000 -> exists ct', adds junk h2 ct = Ok ct' /\ table_ok (h1 ++ h2) ct'.
  Proof.
    induction h2 as [|[k s] h2 IH]; intros h1 ct ks Ht Hf Hi Hz; cbn [adds foldM].
    - exists ct. rewrite app_nil_r. auto.
    - cbn [fst snd]. assert (Hks : named k /\ 0 <= s < 100).
      { rewrite Forall_forall in Hf. apply (Hf (k, s)). apply in_or_app. right. left. reflexivity. }
      destruct Hks as [Hk Hs]. destruct Ht as [T1 T2 T3].
      assert (Hb1 : forall k s, In (k, s) h1 -> 0 <= s < 100).
      { intros k' s' H. rewrite Forall_forall in Hf. apply (Hf (k', s')). apply in_or_app. left. exact H. }
      assert (Hin : incl (map key_of ct) (map fst h1)).
      { intros k' H. apply in_map_iff in H as (ci & <- & H). rewrite Forall_forall in T2. destruct (T2 _ H) as (_ & _ & A3 & A4).
        destruct (ci_states ci) as [|s0 l]; [congruence|]. apply in_map_iff. exists (key_of ci, s0). split; [reflexivity|]. apply A4. left. reflexivity. }
      unfold addConstraintInfo. destruct (add_entry_ok h1 k s Hk Hs ct 0 T1 T2 Hb1) as (ct1 & Ea & Ef & Ek).
      { intros Hx s' Hs'. apply Hx. eapply T3. exact Hs'. }
      { intros Hx. assert (Hl : incl (k :: map key_of ct) ks).
        { intros k' [<-|H]; apply Hi; rewrite map_app; apply in_or_app; [right; left; reflexivity|left; apply Hin, H]. }
        apply NoDup_incl_length in Hl; [|constructor; assumption]. cbn [List.length] in Hl. rewrite map_length in Hl. unfold zlen in *. lia. }
      rewrite Ea. cbn [bind]. fold (adds junk h2 ct1).
      destruct (IH (h1 ++ [(k, s)]) ct1 ks) as (ct' & E' & T'); try (rewrite <- app_assoc; assumption); auto.
      { split.
        - rewrite Ek. destruct (in_dec _ _ _) as [_|Hx]; [exact T1|]. apply NoDup_app_snoc; assumption.
        - exact Ef.
        - intros k' s' H. rewrite Ek. apply in_app_or in H as [H|[H|[]]].
          + apply T3 in H. destruct (in_dec _ _ _); [exact H|apply in_or_app; left; exact H].
          + injection H as <- <-. destruct (in_dec _ _ _) as [Hx|]; [exact Hx|apply in_or_app; right; left; reflexivity]. }
      exists ct'. rewrite <- app_assoc in T'. auto.
  Qed.

  (** The same for every history after which the table exists. *)
  Lemma add_entry_inv h k s : k <> CKey junk -> forall ct n ct', add_entry junk ct n k s = Ok ct' ->
    NoDup (map key_of ct) -> Forall (entry_ok h) ct ->
    (~ In k (map key_of ct) -> (forall s, ~ In (k, s) h)) ->
    Forall (entry_ok (h ++ [(k, s)])) ct' /\
      map key_of ct' = if in_dec ckey_eq_dec k (map key_of ct) then map key_of ct else map key_of ct ++ [k].
  Proof.
    intros Hk. induction ct as [|ci ct IH]; intros n ct' Hr Hnd Hf Hnew.
    - cbn [add_entry map] in *. specialize (Hnew (fun x => x)). destruct (Z.leb_spec MAX_CONSTRAINT n); [discriminate|].
      assert (E : exists ci, ct' = [ci] /\ key_of ci = k /\ ci_states ci = [s]).
      { destruct k as [nm|]; [|injection Hr as <-; eexists; repeat split]. unfold strcopy in Hr.
        destruct (Z.ltb_spec MAX_KEY_TEXT (zlen nm + 2)); [discriminate|]. cbn in Hr. injection Hr as <-. eexists. repeat split. }
      destruct E as (ci & -> & Ek & Es). split.
      + constructor; [|constructor]. unfold entry_ok. rewrite Ek, Es. split; [exact Hk|]. split; [repeat constructor; auto|].
        split; [discriminate|]. intros s'. rewrite in_app_iff. split.
        * intros [<-|[]]. right. left. reflexivity.
        * intros [H'|[H'|[]]]; [exfalso; eapply Hnew; eauto|]. injection H' as <-. left. reflexivity.
      + cbn [map app]. rewrite Ek. destruct (in_dec ckey_eq_dec k []) as [[]|]. reflexivity.
    - cbn [add_entry map] in *. apply Forall_cons_iff in Hf as [(E1 & E2 & E3 & E4) Hf]. inversion Hnd as [|? ? Hni Hnd']; subst.
      assert (Hmono : forall c, entry_ok h c -> key_of c <> k -> entry_ok (h ++ [(k, s)]) c).
      { intros c (A1 & A2 & A3 & A4) Hne. repeat split; auto.
        - intros Hi. apply in_or_app. left. apply A4, Hi.
        - intros Hi. apply in_app_or in Hi as [Hi|[Hi|[]]]; [apply A4, Hi|]. injection Hi as Hi _. congruence. }
      destruct (entry_match junk k ci) eqn:Em.
      + apply match_key in Em; [|exact Hk]. subst k. clear IH.
        assert (Hrest : Forall (entry_ok (h ++ [(key_of ci, s)])) ct).
        { apply Forall_forall. intros c Hc. rewrite Forall_forall in Hf. apply Hmono; [auto|]. intros E. apply Hni. rewrite <- E. apply in_map, Hc. }
        assert (Ekk : forall l, map key_of (mkCinfo (ci_name ci) l :: ct) = if in_dec ckey_eq_dec (key_of ci) (key_of ci :: map key_of ct) then key_of ci :: map key_of ct else (key_of ci :: map key_of ct) ++ [key_of ci]).
        { intros l. destruct (in_dec _ _ _) as [_|Hx]; [reflexivity|exfalso; apply Hx; left; reflexivity]. }
        unfold add_state in Hr. destruct (existsb (Z.eqb s) (ci_states ci)) eqn:Ex.
        * apply existsb_eqb in Ex. cbn [bind] in Hr. injection Hr as <-. split; [|destruct ci; apply Ekk].
          constructor; [|exact Hrest]. repeat split; auto; intros Hi.
          -- apply in_or_app. left. apply E4, Hi.
          -- apply in_app_or in Hi as [Hi|[Hi|[]]]; [apply E4, Hi|]. injection Hi as <-. exact Ex.
        * assert (Hns : ~ In s (ci_states ci)) by (intros Hi; apply existsb_eqb in Hi; congruence).
          destruct (Z.leb_spec MAX_STATES (zlen (ci_states ci))); [discriminate|]. cbn [bind] in Hr.
          injection Hr as <-. split; [|apply Ekk]. constructor; [|exact Hrest].
          unfold entry_ok. change (key_of {| ci_name := ci_name ci; ci_states := ci_states ci ++ [s] |}) with (key_of ci). cbn [ci_states].
          split; [exact E1|]. split; [apply NoDup_app_snoc; assumption|]. split; [destruct (ci_states ci); discriminate|].
          intros s'. rewrite !in_app_iff, E4. cbn. split; intros [Hi|[Hi|[]]]; auto; [subst; auto|]. injection Hi as <-. auto.
      + apply match_no in Em; [|exact Hk]. destruct (add_entry junk ct (n + 1) k s) as [r|] eqn:Ea; [|discriminate]. cbn [bind] in Hr. injection Hr as <-.
        destruct (IH (n + 1) r Ea Hnd' Hf) as (Ef & Ek).
        { intros Hx. apply Hnew. intros [H|H]; [congruence|auto]. }
        split.
        * constructor; [|exact Ef]. apply Hmono; [repeat split; auto; apply E4|congruence].
        * cbn [map]. rewrite Ek. destruct (in_dec ckey_eq_dec k (map key_of ct)) as [Hi|Hi];
            destruct (in_dec ckey_eq_dec k (key_of ci :: map key_of ct)) as [Hj|Hj]; auto.
          -- exfalso. apply Hj. right. exact Hi.
          -- exfalso. destruct Hj as [Hj|Hj]; [congruence|auto].
  Qed.
  Lemma adds_inv : forall h2 h1 ct ct', table_ok h1 ct -> Forall (fun p => fst p <> CKey junk) h2 ->
    adds junk h2 ct = Ok ct' -> table_ok (h1 ++ h2) ct'.
  Proof.
    induction h2 as [|[k s] h2 IH]; intros h1 ct ct' Ht Hf Hr; cbn [adds foldM fst snd] in Hr.
    - injection Hr as <-. rewrite app_nil_r. auto.
    - apply Forall_cons_iff in Hf as [Hk Hf]. cbn [fst] in Hk. destruct (addConstraintInfo junk ct s k) as [ct1|] eqn:Ea; [|discriminate]. cbn [bind] in Hr.
      destruct Ht as [T1 T2 T3]. destruct (add_entry_inv h1 k s Hk ct 0 ct1 Ea T1 T2) as [Ef Ek].
      { intros Hx s' Hs'. apply Hx. eapply T3. exact Hs'. }
      replace (h1 ++ (k, s) :: h2) with ((h1 ++ [(k, s)]) ++ h2) by (rewrite <- app_assoc; reflexivity).
      apply (IH _ ct1); [|exact Hf|exact Hr]. split.
      + rewrite Ek. destruct (in_dec _ _ _) as [_|Hx]; [exact T1|]. apply NoDup_app_snoc; assumption.
      + exact Ef.
      + intros k' s' H. rewrite Ek. apply in_app_or in H as [H|[H|[]]].
        * apply T3 in H. destruct (in_dec _ _ _); [exact H|apply in_or_app; left; exact H].
        * injection H as <- <-. destruct (in_dec _ _ _) as [Hx|]; [exact Hx|apply in_or_app; right; left; reflexivity].
  Qed.

  Lemma lookup_ok h k : k <> CKey junk -> forall ct, NoDup (map key_of ct) -> Forall (entry_ok h) ct ->
    match updateStateInfo junk ct k with
    | Some l => In k (map key_of ct) /\ NoDup l /\ forall s, In s l <-> In (k, s) h
    | None => ~ In k (map key_of ct)
    end.
  Proof.
    intros Hk. induction ct as [|ci ct IH]; intros Hnd Hf; cbn [updateStateInfo map]; [tauto|].
    apply Forall_cons_iff in Hf as [(E1 & E2 & E3 & E4) Hf]. inversion Hnd; subst. destruct (entry_match junk k ci) eqn:Em.
    - apply match_key in Em; [|exact Hk]. subst k. split; [left; reflexivity|]. auto.
    - apply match_no in Em; [|exact Hk]. specialize (IH ltac:(assumption) Hf). destruct (updateStateInfo junk ct k).
      + destruct IH as (I1 & I2 & I3). split; [right; exact I1|auto].
      + intros [H'|H']; [congruence|auto].
  Qed.

  Theorem history_sound h ct : Forall (fun p => fst p <> CKey junk) h -> adds junk h [] = Ok ct -> forall k, k <> CKey junk ->
      match updateStateInfo junk ct k with
      | Some l => (exists s, In (k, s) h) /\ NoDup l /\ forall s, In s l <-> In (k, s) h
      | None => forall s, ~ In (k, s) h
      end.
  Proof.
    intros Hf E k Hk. destruct (adds_inv h [] [] ct) as [T1 T2 T3]; auto.
    { split; [constructor|constructor|intros k' s []]. }
    pose proof (lookup_ok _ k Hk ct T1 T2) as L. cbn [app] in *. destruct (updateStateInfo junk ct k) as [l|].
    - destruct L as (L1 & L2 & L3). split; [|auto]. apply in_map_iff in L1 as (ci & <- & L1). rewrite Forall_forall in T2. destruct (T2 _ L1) as (_ & _ & A3 & A4).
      destruct (ci_states ci) as [|s0 r]; [congruence|]. exists s0. apply A4. left. reflexivity.
    - intros s Hs. apply L. eapply T3, Hs.
  Qed.

  Theorem history_table h ks : Forall (fun p => named (fst p) /\ 0 <= snd p < 100) h -> incl (map fst h) ks -> zlen ks <= 1000 ->
    exists ct, adds junk h [] = Ok ct /\ forall k, k <> CKey junk ->
      match updateStateInfo junk ct k with
      | Some l => (exists s, In (k, s) h) /\ NoDup l /\ forall s, In s l <-> In (k, s) h
      | None => forall s, ~ In (k, s) h
      end.
  Proof.
    intros Hf Hi Hz. destruct (adds_ok h [] [] ks) as (ct & E & [T1 T2 T3]); auto.
    { split; [constructor|constructor|intros k s []]. }
    exists ct. split; [exact E|]. intros k Hk. pose proof (lookup_ok _ k Hk ct T1 T2) as L. cbn [app] in *. destruct (updateStateInfo junk ct k) as [l|].
    - destruct L as (L1 & L2 & L3). split; [|auto]. apply in_map_iff in L1 as (ci & <- & L1). rewrite Forall_forall in T2. destruct (T2 _ L1) as (_ & _ & A3 & A4).
      destruct (ci_states ci) as [|s0 l0] eqn:E0; [congruence|]. exists s0. apply A4. left. reflexivity.
    - intros s Hs. apply L. eapply T3. exact Hs.
  Qed.
End Table.

(** * The observations made on a document *)
Section Doc.
  Variable d : dfa.
  Hypothesis Hd : dfa_ok d.
  Variable buf : bytes.
  Hypothesis Hlead : lead_blanks buf = O.
  Hypothesis Hnul : no_nul buf.
  Notation run := (foldM (core_step d buf)).

  Definition look_at (e : elt) (k : ckey) : res obs :=
    r <- in_range d e ;; Ok ((k, q_state e) :: if r : bool then [] else [(k, 0)]).
  Definition looks (c : core) (ev : event) : res obs :=
    match e_tok ev with
    | TLB => look_at (c_cur c) CArr
    | TKY k => look_at (c_cur c) (CKey k)
    | _ => Ok []
    end.
  Fixpoint hist (evs : list event) (c : core) : res obs :=
    match evs with
    | [] => Ok []
    | ev :: r => o <- looks c ev ;; c' <- core_step d buf c ev ;; h <- hist r c' ;; Ok (o ++ h)
    end.

  Lemma hist_app : forall a b c h1 c1 h2, hist a c = Ok h1 -> run a c = Ok c1 -> hist b c1 = Ok h2 -> hist (a ++ b) c = Ok (h1 ++ h2).
  Proof.
    induction a as [|ev a IH]; intros b c h1 c1 h2 H1 H2 H3; cbn [app hist foldM] in *.
    - injection H1 as <-. injection H2 as ->. exact H3.
    - destruct (looks c ev) as [o|]; [|discriminate]. cbn [bind] in *. destruct (core_step d buf c ev) as [c'|]; [|discriminate]. cbn [bind] in *.
      destruct (hist a c') as [h|] eqn:E; [|discriminate]. cbn [bind] in *. injection H1 as <-. rewrite (IH b c' h c1 h2 E H2 H3). cbn [bind]. rewrite app_assoc. reflexivity.
  Qed.

  Lemma adds_app jk h1 h2 ct : adds jk (h1 ++ h2) ct = (ct' <- adds jk h1 ct ;; adds jk h2 ct').
  Proof. apply foldM_app. Qed.

  Lemma train_one jk c ct ev o : looks c ev = Ok o -> train_step d jk c ct ev = adds jk o ct.
  Proof.
    unfold looks, train_step. destruct (e_tok ev); try (intros H; injection H as <-; reflexivity); unfold look_at;
      (destruct (in_range d (c_cur c)) as [r|]; [|discriminate]); cbn [bind]; intros H; injection H as <-; unfold adds; cbn [foldM fst snd];
      (destruct (addConstraintInfo jk ct _ _); [|reflexivity]); cbn [bind]; destruct r; cbn [foldM fst snd]; auto;
      (destruct (addConstraintInfo jk a 0 _); reflexivity).
  Qed.

  Lemma train_run jk : forall evs c ct h c' ct', hist evs c = Ok h -> run evs c = Ok c' -> adds jk h ct = Ok ct' ->
    foldM (train_core_step d jk buf) evs (c, ct) = Ok (c', ct').
  Proof.
    induction evs as [|ev evs IH]; intros c ct h c' ct' H1 H2 H3; cbn [hist foldM] in *.
    - injection H1 as <-. injection H2 as ->. cbn in H3. injection H3 as ->. reflexivity.
    - destruct (looks c ev) as [o|] eqn:El; [|discriminate]. cbn [bind] in *.
      unfold train_core_step at 1. cbn [fst snd]. rewrite (train_one jk c ct ev o El).
      destruct (core_step d buf c ev) as [c1|]; [|discriminate]. cbn [bind] in *. destruct (hist evs c1) as [h1|] eqn:Eh; [|discriminate]. cbn [bind] in *.
      injection H1 as <-. rewrite adds_app in H3. destruct (adds jk o ct) as [ct1|]; [|discriminate]. cbn [bind] in *. eapply IH; eauto.
  Qed.

  (** By the structure of the document. *)
  Definition inr (q i : Z) : bool := get (in_range d (mkElt q i MInv)) true.
  Definition see (q i : Z) (k : ckey) : obs := (k, q) :: if inr q i then [] else [(k, 0)].
  Fixpoint o_val (q i : Z) (v : json) : obs :=
    match v with
    | JBare _ | JStr _ => []
    | JObj _ ms => o_ms q i ms
    | JArr _ es => see q i CArr ++ o_es (nx d q i None) 0 es
    end
  with o_ms (q i : Z) (ms : members) : obs :=
    match ms with
    | MNil => []
    | MCons _ k v ms' => see q i (CKey k) ++ o_val (nx d q i (Some k)) 0 v ++ o_ms q i ms'
    end
  with o_es (q n : Z) (es : elements) : obs :=
    match es with
    | ENil => []
    | ECons _ v _ es' => o_val q n v ++ o_es q (n + 1) es'
    end.

  Lemma look_see q i m k : valid_state d q -> look_at (mkElt q i m) k = Ok (see q i k).
  Proof.
    intros Hq. unfold look_at, see, inr. change (in_range d (mkElt q i m)) with (in_range d (mkElt q i MInv)).
    destruct (in_range_ok d q i MInv Hd Hq) as (r & ->). cbn. reflexivity.
  Qed.

  Definition H_val (v : json) : Prop :=
    forall p S Q q i ms L pre post cp tb,
    (is_container v = false -> p <> AtRoot) ->
    before p S Q -> ms <> MUninit -> valid_state d q ->
    (List.length Q <= List.length S)%nat ->
    (List.length S + stack_need v <= 100)%nat ->
    buf = pre ++ text v ++ post ->
    fits L (t_val d (in_arr p) q i v) ->
    hist (ev_val cp (zlen pre) tb v) (mkCore S Q (mkElt q i ms) L) = Ok (o_val q i v).
  Definition H_ms (ms : members) : Prop :=
    forall S Q q i m L pre post cp,
    m <> MUninit -> valid_state d q ->
    (List.length Q <= List.length S)%nat ->
    (List.length S + need_ms ms <= 100)%nat ->
    buf = pre ++ text_ms ms ++ post ->
    fits L (t_ms d q i ms) ->
    hist (ev_ms cp (zlen pre) ms) (mkCore S Q (mkElt q i m) L) = Ok (o_ms q i ms).
  Definition H_es (es : elements) : Prop :=
    forall S Q q i m L pre post cp,
    m <> MUninit -> valid_state d q ->
    (List.length Q <= Datatypes.S (List.length S))%nat ->
    (Datatypes.S (List.length S) + need_es es <= 100)%nat ->
    buf = pre ++ text_es es ++ post ->
    fits L (t_es d q i es) ->
    hist (ev_es cp (zlen pre) es) (mkCore (SLB :: S) Q (mkElt q i m) L) = Ok (o_es q i es).

  Lemma hist_one ev c c' : looks c ev = Ok [] -> core_step d buf c ev = Ok c' -> hist [ev] c = Ok [].
  Proof. intros H1 H2. cbn [hist]. rewrite H1. cbn [bind]. rewrite H2. reflexivity. Qed.

  Lemma hist_all : (forall v, H_val v) /\ (forall ms, H_ms ms) /\ (forall es, H_es es).
  Proof.
    apply json_all_ind.
    - intros s p S Q q i ms L pre post cp tb H1 H2 H3 H4 H5 H6 H7 H8. 
      destruct (proj1 (machine_all d Hd buf Hlead Hnul) (JBare s) p S Q q i ms L pre post cp tb H1 H2 H3 H4 H5 H6 H7 H8) as (c & Hc & _).
      cbn [ev_val foldM o_val] in *. destruct (core_step d buf _ _) as [c1|] eqn:E in Hc; [|discriminate]. eapply hist_one; [reflexivity|exact E].
    - intros s p S Q q i ms L pre post cp tb H1 H2 H3 H4 H5 H6 H7 H8. 
      destruct (proj1 (machine_all d Hd buf Hlead Hnul) (JStr s) p S Q q i ms L pre post cp tb H1 H2 H3 H4 H5 H6 H7 H8) as (c & Hc & _).
      cbn [ev_val foldM o_val] in *. destruct (core_step d buf _ _) as [c1|] eqn:E in Hc; [|discriminate]. eapply hist_one; [reflexivity|exact E].
    - (* object *)
      intros w ms IH p S Q q i m L pre post cp tb Hp Hbef Hm Hq HQ HS Hb Hf.
      destruct (proj1 (machine_all d Hd buf Hlead Hnul) (JObj w ms) p S Q q i m L pre post cp tb Hp Hbef Hm Hq HQ HS Hb Hf) as (cf & Hall & _).
      rewrite t_val_obj in *. set (txt := text (JObj w ms)) in *.
      apply fits_mid in Hf as (Hf1 & Hf2 & Hf3). apply fits_app in Hf3 as [Hf3 Hf4].
      cbn [stack_need] in HS. cbn [ev_val] in *. fold txt in Hall |- *.
      set (m1 := if mt d q i =? DFA_OUTPUT_CANDIDATE then MAt (zlen pre) else m).
      assert (Hm1 : m1 <> MUninit) by (unfold m1; destruct (_ =? _); [discriminate|exact Hm]).
      assert (Hb2 : buf = (pre ++ B "{" ++ w) ++ text_ms ms ++ (B "}" ++ post)).
      { rewrite Hb. unfold txt. cbn [text]. leq. }
      assert (Ez : zlen (pre ++ B "{" ++ w) = zlen pre + 1 + zlen w) by (change (B "{") with ["{"%char]; zlc).
      cbn [hist foldM] in *. change (looks _ (mkEvent TLCB _ _)) with (@Ok obs []). cbn [bind]. 
      assert (Ho : core_step d buf (mkCore S Q (mkElt q i m) L) (mkEvent TLCB (zlen pre + 1) (zlen pre + 1)) = Ok (mkCore (SLCB :: S) Q (mkElt q i m1) (L ++ t_open_obj d q i))).
      { cbn [core_step e_tok e_next]. rewrite (open_obj_ok d Hd buf Hlead S Q q i m L (zlen pre)); [reflexivity|lia|exact Hq|exact Hf1]. }
      rewrite Ho in *. cbn [bind] in *.
      assert (Hbody := proj1 (proj2 (machine_all d Hd buf Hlead Hnul)) ms (SLCB :: S) Q q i m1 (L ++ t_open_obj d q i)
                (pre ++ B "{" ++ w) (B "}" ++ post) (zlen pre + 1) Hm1 Hq).
      rewrite Ez in Hbody. cbn [List.length] in Hbody.
      specialize (Hbody ltac:(lia) ltac:(lia) Hb2 Hf2).
      assert (G := IH (SLCB :: S) Q q i m1 (L ++ t_open_obj d q i) (pre ++ B "{" ++ w) (B "}" ++ post) (zlen pre + 1) Hm1 Hq).
      rewrite Ez in G. cbn [List.length] in G. specialize (G ltac:(lia) ltac:(lia) Hb2 Hf2).
      rewrite foldM_app, Hbody in Hall. cbn [bind foldM] in Hall. destruct (core_step d buf _ _) as [c2|] eqn:E2 in Hall; [|discriminate].
      assert (Gl := fun Hx => hist_one _ _ _ Hx E2). specialize (Gl eq_refl). rewrite (hist_app _ _ _ _ _ [] G Hbody Gl). cbn [bind o_val app]. rewrite app_nil_r. reflexivity.
    - (* array *)
      intros w es IH p S Q q i m L pre post cp tb Hp Hbef Hm Hq HQ HS Hb Hf.
      destruct (proj1 (machine_all d Hd buf Hlead Hnul) (JArr w es) p S Q q i m L pre post cp tb Hp Hbef Hm Hq HQ HS Hb Hf) as (cf & Hall & _).
      rewrite t_val_arr in *. set (txt := text (JArr w es)) in *.
      apply fits_mid in Hf as (Hf1 & Hf2 & Hf3).
      cbn [stack_need] in HS. cbn [ev_val] in *. fold txt in Hall |- *.
      destruct (next_ok d q i m None Hd Hq) as [_ Hnv]. set (qn := nx d q i None) in *.
      set (m1 := if mt d q i =? DFA_OUTPUT_CANDIDATE then MAt (zlen pre) else m).
      assert (Hb2 : buf = (pre ++ B "[" ++ w) ++ text_es es ++ (B "]" ++ post)).
      { rewrite Hb. unfold txt. cbn [text]. leq. }
      assert (Ez : zlen (pre ++ B "[" ++ w) = zlen pre + 1 + zlen w) by (change (B "[") with ["["%char]; zlc).
      cbn [hist foldM] in *. 
      change (looks (mkCore S Q (mkElt q i m) L) (mkEvent TLB (zlen pre + 1) (zlen pre + 1))) with (look_at (mkElt q i m) CArr). rewrite look_see by exact Hq. cbn [bind].
      assert (Ho : core_step d buf (mkCore S Q (mkElt q i m) L) (mkEvent TLB (zlen pre + 1) (zlen pre + 1)) = Ok (mkCore (SLB :: S) (mkElt q i m1 :: Q) (mkElt qn 0 MInv) (L ++ t_open_arr d q i))).
      { cbn [core_step e_tok e_next]. rewrite (open_arr_ok d Hd buf Hlead S Q q i m L (zlen pre)); [reflexivity|lia|lia|exact Hq|exact Hf1]. }
      rewrite Ho in *. cbn [bind] in *.
      destruct (proj2 (proj2 (machine_all d Hd buf Hlead Hnul)) es S (mkElt q i m1 :: Q) qn 0 MInv (L ++ t_open_arr d q i)
                (pre ++ B "[" ++ w) (B "]" ++ post) (zlen pre + 1)) as (m' & Hm' & Hbody).
      { discriminate. } { exact Hnv. } { cbn [List.length]. lia. } { lia. } { exact Hb2. } { exact Hf2. }
      rewrite Ez in Hbody.
      assert (G := IH S (mkElt q i m1 :: Q) qn 0 MInv (L ++ t_open_arr d q i) (pre ++ B "[" ++ w) (B "]" ++ post) (zlen pre + 1)).
      rewrite Ez in G. cbn [List.length] in G. specialize (G ltac:(discriminate) Hnv ltac:(lia) ltac:(lia) Hb2 Hf2).
      rewrite foldM_app, Hbody in Hall. cbn [bind foldM] in Hall. destruct (core_step d buf _ _) as [c2|] eqn:E2 in Hall; [|discriminate].
      assert (Gl := fun Hx => hist_one _ _ _ Hx E2). specialize (Gl eq_refl). rewrite (hist_app _ _ _ _ _ [] G Hbody Gl). cbn [bind o_val]. rewrite app_nil_r. reflexivity.
    - unfold H_ms. intros. reflexivity.
    - (* member *)
      intros p k v IHv ms IHms S Q q i m L pre post cp Hm Hq HQ HS Hb Hf.
      rewrite t_ms_cons in *. cbn [need_ms] in *. apply fits_app in Hf as [Hf1 Hf2].
      destruct (next_ok d q i m (Some k) Hd Hq) as [Hn Hnv]. cbn [o_ms]. set (qn := nx d q i (Some k)) in *.
      cbn [ev_ms].
      set (oc := zlen pre + zlen (w_before p) + zlen k + 2 + zlen (w_colon p)).
      set (ov := oc + 1 + zlen (w_value p)).
      set (oe := ov + zlen (text v) + zlen (w_after p)).
      cbv zeta. cbn [hist]. change (looks (mkCore S Q (mkElt q i m) L) (mkEvent (TKY k) ?a ?b)) with (look_at (mkElt q i m) (CKey k)).
      rewrite look_see by exact Hq. cbn [bind core_step e_tok].
      unfold do_ky at 1. cbn [c_ss c_qs c_cur c_tl]. rewrite Hn. cbn [bind].
      rewrite !push_ok by lia. 
      cbn [text_ms] in Hb.
      set (pre2 := pre ++ w_before p ++ (DQ :: k ++ [DQ]) ++ w_colon p ++ B ":" ++ w_value p).
      assert (Hp2 : zlen pre2 = ov).
      { unfold pre2, ov, oc. change (B ":") with [":"%char]. zlc. }
      assert (Hb2 : buf = pre2 ++ text v ++ (w_after p ++ match ms with MNil => [] | _ => B "," ++ text_ms ms end ++ post)).
      { rewrite Hb. unfold pre2. leq. }
      destruct (proj1 (machine_all d Hd buf Hlead Hnul) v (InKey (mkElt q i m) Q) (SKY :: S) (mkElt q i m :: Q) qn 0 MInv L pre2
                  (w_after p ++ match ms with MNil => [] | _ => B "," ++ text_ms ms end ++ post)
                  oc (lead_bt (w_after p))) as (c & Hrun & Haft).
      { discriminate. } { split; [eauto|reflexivity]. } { discriminate. } { exact Hnv. }
      { cbn [List.length]. lia. } { cbn [List.length]. lia. } { exact Hb2. } { exact Hf1. }
      rewrite Hp2 in Hrun. cbn [after in_arr tl] in Haft. subst c.
      assert (Gv := IHv (InKey (mkElt q i m) Q) (SKY :: S) (mkElt q i m :: Q) qn 0 MInv L pre2
                  (w_after p ++ match ms with MNil => [] | _ => B "," ++ text_ms ms end ++ post) oc (lead_bt (w_after p))).
      rewrite Hp2 in Gv. cbn [List.length before] in Gv.
      specialize (Gv ltac:(discriminate) ltac:(split; [eauto|reflexivity]) ltac:(discriminate) Hnv ltac:(lia) ltac:(lia) Hb2 Hf1).
      assert (Gr : hist match ms with MNil => [] | _ => mkEvent TCOM (oe + 1) (oe + 1) :: ev_ms (oe + 1) (oe + 1) ms end (mkCore S Q (mkElt q i m) (L ++ t_val d false qn 0 v)) = Ok (o_ms q i ms)).
      { destruct ms as [|p' k' v' ms']; [reflexivity|].
        set (ms1 := MCons p' k' v' ms') in *.
        assert (G := IHms S Q q i m (L ++ t_val d false qn 0 v) (pre2 ++ text v ++ w_after p ++ B ",") post (oe + 1) Hm Hq HQ).
        replace (zlen (pre2 ++ text v ++ w_after p ++ B ",")) with (oe + 1) in G.
        2:{ unfold oe. change (B ",") with [","%char]. zlc. }
        change (hist ?l ?c) with (hist l c). cbn [hist]. change (looks _ (mkEvent TCOM _ _)) with (@Ok obs []). cbn [bind core_step e_tok].
        rewrite G; [reflexivity|lia| |exact Hf2]. rewrite Hb. unfold pre2, ms1. leq. }
      rewrite (hist_app _ _ _ _ _ _ Gv Hrun Gr). reflexivity.
    - unfold H_es. intros. reflexivity.
    - (* element *)
      intros wb v IHv wa es IHes S Q q i m L pre post cp Hm Hq HQ HS Hb Hf.
      rewrite t_es_cons in *. cbn [need_es] in *. apply fits_app in Hf as [Hf1 Hf2].
      cbn [ev_es].
      set (ov := zlen pre + zlen wb) in *.
      set (oe := ov + zlen (text v) + zlen wa).
      cbv zeta. cbn [text_es] in Hb.
      assert (Hb2 : buf = (pre ++ wb) ++ text v ++ (wa ++ match es with ENil => [] | _ => B "," ++ text_es es end ++ post)).
      { rewrite Hb. leq. }
      assert (Ez : zlen (pre ++ wb) = ov) by (unfold ov; zlc).
      destruct (proj1 (machine_all d Hd buf Hlead Hnul) v InArr (SLB :: S) Q q i m L (pre ++ wb)
                  (wa ++ match es with ENil => [] | _ => B "," ++ text_es es end ++ post)
                  cp (lead_bt wa)) as (c & Hrun & Haft).
      { discriminate. } { cbn. eauto. } { exact Hm. } { exact Hq. }
      { cbn [List.length]. lia. } { cbn [List.length]. lia. } { exact Hb2. } { exact Hf1. }
      rewrite Ez in Hrun. cbn [after in_arr] in Haft. destruct Haft as (m' & Hm' & _ & ->).
      assert (Gv := IHv InArr (SLB :: S) Q q i m L (pre ++ wb)
                  (wa ++ match es with ENil => [] | _ => B "," ++ text_es es end ++ post) cp (lead_bt wa)).
      rewrite Ez in Gv. cbn [List.length before in_arr] in Gv.
      specialize (Gv ltac:(discriminate) ltac:(eauto) Hm Hq ltac:(lia) ltac:(lia) Hb2 Hf1).
      assert (Gr : hist match es with ENil => [] | _ => mkEvent TCOM (oe + 1) (oe + 1) :: ev_es (oe + 1) (oe + 1) es end (mkCore (SLB :: S) Q (mkElt q (i + 1) m') (L ++ t_val d true q i v)) = Ok (o_es q (i + 1) es)).
      { destruct es as [|wb' v' wa' es']; [reflexivity|].
        set (es1 := ECons wb' v' wa' es') in *.
        assert (G := IHes S Q q (i + 1) m' (L ++ t_val d true q i v) (pre ++ wb ++ text v ++ wa ++ B ",") post (oe + 1)).
        replace (zlen (pre ++ wb ++ text v ++ wa ++ B ",")) with (oe + 1) in G.
        2:{ unfold oe, ov. change (B ",") with [","%char]. zlc. }
        cbn [hist]. change (looks _ (mkEvent TCOM _ _)) with (@Ok obs []). cbn [bind core_step e_tok].
        rewrite G; [reflexivity|exact Hm'|exact Hq|exact HQ|lia| |exact Hf2]. rewrite Hb. unfold es1. leq. }
      rewrite (hist_app _ _ _ _ _ _ Gv Hrun Gr). reflexivity.
  Qed.
End Doc.
