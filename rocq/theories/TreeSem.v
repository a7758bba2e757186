(** The serial engine on a whole document equals a recursive function on the
    document tree (for every automaton). *)
From Verif Require Import Base Util Lexer Spec LexProof LexDoc LexMain Dfa Constraint Stream.
Open Scope Z_scope.

(** * Well-formed automata *)
Definition nstates (d : dfa) : Z := zlen (d_table d).

Record dfa_ok (d : dfa) : Prop := {
  ok_states : 2 <= nstates d;
  ok_inputs : 3 <= d_inputs d;
  ok_names  : zlen (d_names d) = d_inputs d;
  ok_accept : zlen (d_accept d) = nstates d;
  ok_range  : zlen (d_range d) = nstates d;
  ok_rows   : forall row, In row (d_table d) ->
                zlen row = d_inputs d /\ (forall x, In x row -> 0 <= x < nstates d)
}.

Definition valid_state (d : dfa) (q : Z) : Prop := 0 <= q < nstates d.

Lemma zread_ok {A} (l : list A) z : 0 <= z < zlen l -> exists a, zread l z = Ok a /\ In a l.
Proof.
  intros H. unfold zread, znth. replace (z <? 0) with false by lia.
  destruct (nth_error l (Z.to_nat z)) eqn:E.
  - exists a. split; [reflexivity|]. eapply nth_error_In; eauto.
  - apply nth_error_None in E. unfold zlen in H. lia.
Qed.

(** Total versions of the lookups. *)
Definition get {A} (r : res A) (dflt : A) : A := match r with Ok a => a | UB _ => dflt end.
Definition mt (d : dfa) (q i : Z) : Z := get (getMatchedType d (mkElt q i MInv)) 0.
Definition nx (d : dfa) (q i : Z) (inp : option bytes) : Z :=
  get (e <- next_elt d (mkElt q i MInv) inp ;; Ok (q_state e)) 0.

Lemma in_range_ok d q i m : dfa_ok d -> valid_state d q -> exists b, in_range d (mkElt q i m) = Ok b.
Proof.
  intros Hd Hq. unfold in_range, getDFAArrayIndex. cbn [q_state q_count].
  destruct (zread_ok (d_range d) q) as ([lo hi] & Hr & _).
  { rewrite (ok_range d Hd). exact Hq. }
  rewrite Hr. cbn. eauto.
Qed.

Lemma gmt_ms d q i m m' : getMatchedType d (mkElt q i m) = getMatchedType d (mkElt q i m').
Proof. reflexivity. Qed.
Lemma next_ms d q i m m' inp : next_elt d (mkElt q i m) inp = next_elt d (mkElt q i m') inp.
Proof. reflexivity. Qed.

Lemma gmt_ok d q i m : dfa_ok d -> valid_state d q ->
  getMatchedType d (mkElt q i m) = Ok (mt d q i).
Proof.
  intros Hd Hq. unfold mt. rewrite (gmt_ms d q i m MInv).
  unfold getMatchedType, getDFAAcceptType. cbn [q_state].
  destruct (zread_ok (d_accept d) q) as (a & Ha & _).
  { rewrite (ok_accept d Hd). exact Hq. }
  rewrite Ha. cbn [bind]. destruct (a =? DFA_OUTPUT_CANDIDATE); [|reflexivity].
  destruct (in_range_ok d q i MInv Hd Hq) as (b & ->). reflexivity.
Qed.

Lemma find_input_ok d row s : dfa_ok d -> In row (d_table d) ->
  forall n c, 3 <= c -> c + Z.of_nat n = d_inputs d ->
  exists k, find_input n d row c s = Ok k /\ 1 <= k < d_inputs d.
Proof.
  intros Hd Hrow. induction n as [|n IH]; intros c Hc Hn; cbn [find_input].
  - exists 1. pose proof (ok_inputs d Hd). split; [reflexivity|lia].
  - destruct (ok_rows d Hd row Hrow) as [Hl _].
    destruct (zread_ok row c) as (e & He & _); [lia|]. rewrite He. cbn [bind].
    destruct (IH (c + 1)) as (k & Hk & Hkb); [lia|lia|].
    destruct (e =? 0); [eauto|].
    destruct (zread_ok (d_names d) c) as (nm & Hnm & _); [rewrite (ok_names d Hd); lia|].
    rewrite Hnm. cbn [bind]. destruct (beq nm s); [|eauto].
    exists c. split; [reflexivity|lia].
Qed.

Lemma dns_ok d q inp : dfa_ok d -> valid_state d q ->
  exists q', dfaNextStateByStr d q inp = Ok q' /\ valid_state d q'.
Proof.
  intros Hd Hq. unfold dfaNextStateByStr, dfaNextState.
  destruct (zread_ok (d_table d) q) as (row & Hr & Hin); [exact Hq|].
  destruct (ok_rows d Hd row Hin) as [Hl Hx]. pose proof (ok_inputs d Hd).
  destruct inp as [s|]; rewrite Hr; cbn [bind].
  - destruct (find_input_ok d row s Hd Hin (Z.to_nat (d_inputs d - 3)) 3) as (k & Hk & Hkb); [lia|lia|].
    rewrite Hk. cbn [bind]. destruct (zread_ok row k) as (x & Hxr & Hxi); [lia|].
    exists x. split; [exact Hxr|]. apply Hx, Hxi.
  - destruct (zread_ok row 2) as (x & Hxr & Hxi); [lia|].
    exists x. split; [exact Hxr|]. apply Hx, Hxi.
Qed.

Lemma next_ok d q i m inp : dfa_ok d -> valid_state d q ->
  next_elt d (mkElt q i m) inp = Ok (mkElt (nx d q i inp) 0 MInv) /\ valid_state d (nx d q i inp).
Proof.
  intros Hd Hq. unfold nx. rewrite (next_ms d q i m MInv).
  unfold next_elt. cbn [q_state].
  destruct (in_range_ok d q i MInv Hd Hq) as (b & ->). cbn [bind]. destruct b.
  - destruct (dns_ok d q inp Hd Hq) as (q' & -> & Hv). cbn. auto.
  - cbn. split; [reflexivity|]. unfold valid_state. pose proof (ok_states d Hd). lia.
Qed.

(** A predicate state is recognised whatever the counter. *)
Lemma mt_pred d q i j : dfa_ok d -> valid_state d q ->
  (mt d q i =? DFA_PREDICATE) = (mt d q j =? DFA_PREDICATE).
Proof.
  intros Hd Hq. unfold mt, getMatchedType, getDFAAcceptType. cbn [q_state].
  destruct (zread_ok (d_accept d) q) as (a & Ha & _).
  { rewrite (ok_accept d Hd). exact Hq. }
  rewrite Ha. cbn [bind].
  destruct (Z.eqb_spec a DFA_OUTPUT_CANDIDATE) as [->|Hn]; [|reflexivity].
  destruct (in_range_ok d q i MInv Hd Hq) as (b & ->).
  destruct (in_range_ok d q j MInv Hd Hq) as (b' & ->).
  destruct b, b'; reflexivity.
Qed.

(** * The tree function *)
Section Tree.
  Variable d : dfa.

  Definition t_prim (q i : Z) (s : bytes) : list tuple :=
    if (mt d q i =? DFA_OUTPUT_CANDIDATE) || (mt d q i =? DFA_CONDITION) then [(q, s)] else [].
  Definition t_open_obj (q i : Z) : list tuple :=
    if mt d q i =? DFA_PREDICATE then [(q, B "{")]
    else if mt d q i =? DFA_CONDITION then [(q, [])] else [].
  Definition t_open_arr (q i : Z) : list tuple :=
    if mt d q i =? DFA_CONDITION then [(q, [])] else [].
  Definition t_close (q i : Z) (txt : bytes) : list tuple :=
    if mt d q i =? DFA_OUTPUT_CANDIDATE then [(q, txt)] else [].
  Definition t_close_elem (ar : bool) (q i : Z) : list tuple :=
    if ar && (mt d q i =? DFA_PREDICATE) then [(q, B "}")] else [].

  Fixpoint t_val (ar : bool) (q i : Z) (v : json) : list tuple :=
    match v with
    | JBare s => t_prim q i s
    | JStr s => t_prim q i (DQ :: s ++ [DQ])
    | JObj _ ms =>
        t_open_obj q i ++ t_ms q i ms ++ t_close q i (text v) ++ t_close_elem ar q i
    | JArr _ es =>
        t_open_arr q i ++ t_es (nx d q i None) 0 es ++ t_close q i (text v)
    end
  with t_ms (q i : Z) (ms : members) : list tuple :=
    match ms with
    | MNil => []
    | MCons _ k v ms' => t_val false (nx d q i (Some k)) 0 v ++ t_ms q i ms'
    end
  with t_es (q n : Z) (es : elements) : list tuple :=
    match es with
    | ENil => []
    | ECons _ v _ es' => t_val true q n v ++ t_es q (n + 1) es'
    end.

  Lemma t_val_obj ar q i w ms : t_val ar q i (JObj w ms) =
    t_open_obj q i ++ t_ms q i ms ++ t_close q i (text (JObj w ms)) ++ t_close_elem ar q i.
  Proof. reflexivity. Qed.
  Lemma t_val_arr ar q i w es : t_val ar q i (JArr w es) =
    t_open_arr q i ++ t_es (nx d q i None) 0 es ++ t_close q i (text (JArr w es)).
  Proof. reflexivity. Qed.
  Lemma t_ms_cons q i p k v ms : t_ms q i (MCons p k v ms) =
    t_val false (nx d q i (Some k)) 0 v ++ t_ms q i ms.
  Proof. reflexivity. Qed.
  Lemma t_es_cons q n wb v wa es : t_es q n (ECons wb v wa es) =
    t_val true q n v ++ t_es q (n + 1) es.
  Proof. reflexivity. Qed.
End Tree.

(** Stack space a value needs. *)
Fixpoint stack_need (v : json) : nat :=
  match v with
  | JBare _ | JStr _ => 0
  | JObj _ ms => S (need_ms ms)
  | JArr _ es => S (need_es es)
  end
with need_ms (ms : members) : nat :=
  match ms with
  | MNil => 0
  | MCons _ _ v ms' => Nat.max (S (stack_need v)) (need_ms ms')
  end
with need_es (es : elements) : nat :=
  match es with
  | ENil => 0
  | ECons _ v _ es' => Nat.max (stack_need v) (need_es es')
  end.

Fixpoint es_len (es : elements) : Z :=
  match es with ENil => 0 | ECons _ _ _ es' => es_len es' + 1 end.

(** Tuples fit into the tuple list. *)
Definition fits (L T : list tuple) : Prop :=
  zlen L + zlen T <= MAX_TUPLE_LIST /\ Forall (fun t => zlen (snd t) <= 998) T.

Lemma fits_app L T1 T2 : fits L (T1 ++ T2) -> fits L T1 /\ fits (L ++ T1) T2.
Proof.
  unfold fits. rewrite !zlen_app. intros [H1 H2]. apply Forall_app in H2 as [H2 H3].
  pose proof (zlen_nonneg T2). repeat split; auto; lia.
Qed.

Lemma addTuple_ok L q s : fits L [(q, s)] -> addTuple L q s = Ok (L ++ [(q, s)]).
Proof.
  intros [H1 H2]. unfold addTuple. rewrite zlen_cons, zlen_nil in H1.
  replace (MAX_TUPLE_LIST <=? zlen L) with false by (unfold MAX_TUPLE_LIST in *; lia).
  inversion H2; subst. cbn [snd] in *. unfold strcopy, MAX_TEXT.
  replace (1000 <? zlen s + 2) with false by lia. reflexivity.
Qed.

Lemma push_ok {A} (st : list A) x : (List.length st < 100)%nat -> push st x = x :: st.
Proof. intros H. unfold push, MAX_STACK. apply Nat.ltb_lt in H. rewrite H. reflexivity. Qed.

Section Machine.
  Variable d : dfa.
  Hypothesis Hd : dfa_ok d.
  Variable buf : bytes.
  Hypothesis Hlead : lead_blanks buf = O.
  Hypothesis Hnul : no_nul buf.

  Notation run := (foldM (core_step d buf)).

  Lemma substring_text pre s post : buf = pre ++ s ++ post ->
    substring buf 0 (zlen pre) (zlen pre + zlen s) = Ok s.
  Proof.
    intros Hb. unfold substring, ltrim. cbn [Z.to_nat skipn]. rewrite Hlead.
    pose proof (zlen_nonneg s).
    replace (zlen pre + zlen s <? zlen pre) with false by lia.
    replace (zlen pre + zlen s - zlen pre) with (zlen s) by lia.
    rewrite (read_range_at buf pre s post _ Hb) by lia. cbn [bind].
    rewrite c_string_id; [reflexivity|]. intros Hin. apply Hnul. rewrite Hb.
    apply in_or_app. right. apply in_or_app. left. exact Hin.
  Qed.

  (** The state before the closing bracket of a container. *)
  Lemma emit_close_ok pre s post e L q i ms :
    buf = pre ++ s ++ post -> valid_state d q ->
    ms <> MUninit -> (mt d q i = DFA_OUTPUT_CANDIDATE -> ms = MAt (zlen pre)) ->
    e = mkElt q i ms -> fits L (t_close d q i s) ->
    emit_close d buf e (zlen pre + zlen s) L
    = Ok (L ++ t_close d q i s, (mt d q i =? DFA_OUTPUT_CANDIDATE)).
  Proof.
    intros Hb Hq Hms Hm -> Hf. unfold emit_close, t_close in *. cbn [q_ms q_state].
    destruct (Z.eqb_spec (mt d q i) DFA_OUTPUT_CANDIDATE) as [E|E].
    - rewrite (Hm E). cbn [ms_set bind]. rewrite (gmt_ok d q i _ Hd Hq). cbn [bind].
      rewrite E. cbn [Z.eqb DFA_OUTPUT_CANDIDATE Pos.eqb].
      rewrite (substring_text pre s post Hb). cbn [bind]. rewrite addTuple_ok by exact Hf.
      reflexivity.
    - rewrite app_nil_r. destruct ms as [|z|]; cbn [ms_set bind].
      + reflexivity.
      + rewrite (gmt_ok d q i _ Hd Hq). cbn [bind].
        destruct (Z.eqb_spec (mt d q i) DFA_OUTPUT_CANDIDATE); [contradiction|reflexivity].
      + congruence.
  Qed.

  (** What a value leaves behind, in the three places it can stand in. *)
  Inductive place : Type := InKey (e0 : elt) (Q' : list elt) | InArr | AtRoot.

  Definition before (p : place) (S : list sym) (Q : list elt) : Prop :=
    match p with
    | InKey e0 Q' => (exists S', S = SKY :: S') /\ Q = e0 :: Q'
    | InArr => exists S', S = SLB :: S'
    | AtRoot => S = []
    end.

  Definition after (p : place) (S : list sym) (Q : list elt) (q i : Z) (ms : mstart)
                   (L : list tuple) (c : core) : Prop :=
    match p with
    | InKey e0 Q' => c = mkCore (tl S) Q' e0 L
    | InArr => exists ms', ms' <> MUninit /\ (mt d q i <> DFA_OUTPUT_CANDIDATE -> ms' = ms)
                           /\ c = mkCore S Q (mkElt q (i + 1) ms') L
    | AtRoot => exists ms', ms' <> MUninit /\ (mt d q i <> DFA_OUTPUT_CANDIDATE -> ms' = ms)
                           /\ c = mkCore [] Q (mkElt q i ms') L
    end.

  Definition in_arr (p : place) : bool := match p with InArr => true | _ => false end.

  Definition M_val (v : json) : Prop :=
    forall p S Q q i ms L pre post cp tb,
    (is_container v = false -> p <> AtRoot) ->
    before p S Q -> ms <> MUninit -> valid_state d q ->
    (List.length Q <= List.length S)%nat ->
    (List.length S + stack_need v <= 100)%nat ->
    buf = pre ++ text v ++ post ->
    fits L (t_val d (in_arr p) q i v) ->
    exists c, run (ev_val cp (zlen pre) tb v) (mkCore S Q (mkElt q i ms) L) = Ok c
      /\ after p S Q q i ms (L ++ t_val d (in_arr p) q i v) c.

  Definition M_ms (ms : members) : Prop :=
    forall S Q q i m L pre post cp,
    m <> MUninit -> valid_state d q ->
    (List.length Q <= List.length S)%nat ->
    (List.length S + need_ms ms <= 100)%nat ->
    buf = pre ++ text_ms ms ++ post ->
    fits L (t_ms d q i ms) ->
    run (ev_ms cp (zlen pre) ms) (mkCore S Q (mkElt q i m) L)
    = Ok (mkCore S Q (mkElt q i m) (L ++ t_ms d q i ms)).

  Definition M_es (es : elements) : Prop :=
    forall S Q q i m L pre post cp,
    m <> MUninit -> valid_state d q ->
    (List.length Q <= Datatypes.S (List.length S))%nat ->
    (Datatypes.S (List.length S) + need_es es <= 100)%nat ->
    buf = pre ++ text_es es ++ post ->
    fits L (t_es d q i es) ->
    exists m', m' <> MUninit /\
    run (ev_es cp (zlen pre) es) (mkCore (SLB :: S) Q (mkElt q i m) L)
    = Ok (mkCore (SLB :: S) Q (mkElt q (i + es_len es) m') (L ++ t_es d q i es)).

  Lemma M_prim (v : json) s :
    text v = s -> is_container v = false ->
    (forall ar q i, t_val d ar q i v = t_prim d q i s) ->
    (forall cp o tb, exists n st, ev_val cp o tb v = [mkEvent (TPRI s) n st]) ->
    M_val v.
  Proof.
    intros Ht Hc HT Hev p S Q q i ms L pre post cp tb Hroot Hbef Hms Hq HQ HS Hb Hf.
    rewrite HT in *. destruct (Hev cp (zlen pre) tb) as (n & st & ->).
    cbn [foldM core_step e_tok]. unfold do_pri.
    assert (Htl : (if (mt d q i =? DFA_OUTPUT_CANDIDATE) || (mt d q i =? DFA_CONDITION)
                   then addTuple L q s else Ok L) = Ok (L ++ t_prim d q i s)).
    { unfold t_prim in *. destruct (_ || _).
      - apply addTuple_ok. exact Hf.
      - rewrite app_nil_r. reflexivity. }
    destruct p as [e0 Q'| |]; cbn [before after] in *.
    - destruct Hbef as [[S' ->] ->]. cbn [c_ss c_cur c_tl c_qs].
      rewrite (gmt_ok d q i ms Hd Hq). cbn [bind q_state]. rewrite Htl. cbn [bind qs_pop].
      eexists. split; [reflexivity|]. reflexivity.
    - destruct Hbef as [S' ->]. cbn [c_ss c_cur c_tl c_qs].
      rewrite (gmt_ok d q i ms Hd Hq). cbn [bind q_state]. rewrite Htl. cbn [bind].
      eexists. split; [reflexivity|]. exists ms. repeat split; auto.
    - exfalso. apply Hroot; auto.
  Qed.

  Lemma fits_mid L T1 T2 T3 : fits L (T1 ++ T2 ++ T3) -> fits L T1 /\ fits (L ++ T1) T2 /\ fits ((L ++ T1) ++ T2) T3.
  Proof.
    intros H. apply fits_app in H as [H1 H]. apply fits_app in H as [H2 H3]. auto.
  Qed.

  Lemma machine_all : (forall v, M_val v) /\ (forall ms, M_ms ms) /\ (forall es, M_es es).
  Proof.
    apply json_all_ind.
    - intros s. eapply M_prim; try reflexivity. intros. eexists. eexists. reflexivity.
    - intros s. eapply M_prim; try reflexivity. intros. eexists. eexists. reflexivity.
    - (* object *)
      intros w ms IH p S Q q i m L pre post cp tb _ Hbef Hm Hq HQ HS Hb Hf.
      rewrite t_val_obj in *. set (txt := text (JObj w ms)) in *.
      apply fits_mid in Hf as (Hf1 & Hf2 & Hf3). apply fits_app in Hf3 as [Hf3 Hf4].
      cbn [stack_need] in HS.
      set (m1 := if mt d q i =? DFA_OUTPUT_CANDIDATE then MAt (zlen pre) else m).
      assert (Hm1 : m1 <> MUninit) by (unfold m1; destruct (_ =? _); [discriminate|exact Hm]).
      assert (Hopen : do_lcb d (zlen pre + 1) (mkCore S Q (mkElt q i m) L)
                      = Ok (mkCore (SLCB :: S) Q (mkElt q i m1) (L ++ t_open_obj d q i))).
      { unfold do_lcb. cbn [c_ss c_qs c_cur c_tl]. rewrite push_ok by lia.
        rewrite (gmt_ok d q i m Hd Hq). cbn [bind]. unfold t_open_obj, m1 in *.
        destruct (Z.eqb_spec (mt d q i) DFA_OUTPUT_CANDIDATE) as [E|E].
        - rewrite E in *. cbn. rewrite app_nil_r. unfold set_ms. cbn.
          do 4 f_equal. lia.
        - destruct (mt d q i =? DFA_PREDICATE).
          + cbn [q_state]. rewrite addTuple_ok by exact Hf1. reflexivity.
          + destruct (mt d q i =? DFA_CONDITION).
            * cbn [q_state]. rewrite addTuple_ok by exact Hf1. reflexivity.
            * rewrite app_nil_r. reflexivity. }
      cbn [ev_val]. fold txt. cbn [foldM core_step e_tok e_next].
      rewrite Hopen. cbn [bind]. rewrite foldM_app.
      assert (Hbody := IH (SLCB :: S) Q q i m1 (L ++ t_open_obj d q i)
                (pre ++ B "{" ++ w) (B "}" ++ post) (zlen pre + 1) Hm1 Hq).
      replace (zlen (pre ++ B "{" ++ w)) with (zlen pre + 1 + zlen w) in Hbody.
      2:{ change (B "{") with ["{"%char]. zlc. }
      cbn [List.length] in Hbody. rewrite Hbody; clear Hbody.
      2: lia. 2: lia. 3: exact Hf2.
      2:{ rewrite Hb. unfold txt. cbn [text]. leq. }
      cbn [bind foldM core_step e_tok e_next].
      unfold do_rcb. cbn [c_ss c_qs c_cur c_tl].
      rewrite (emit_close_ok pre txt post (mkElt q i m1) _ q i m1 Hb Hq Hm1); [|intros E; unfold m1; rewrite E; reflexivity|reflexivity|exact Hf3].
      cbn [bind].
      set (L3 := ((L ++ t_open_obj d q i) ++ t_ms d q i ms) ++ t_close d q i txt) in *.
      assert (He : (if mt d q i =? DFA_OUTPUT_CANDIDATE then set_ms (mkElt q i m1) MInv else mkElt q i m1)
                   = mkElt q i (if mt d q i =? DFA_OUTPUT_CANDIDATE then MInv else m)).
      { unfold m1. destruct (mt d q i =? DFA_OUTPUT_CANDIDATE); reflexivity. }
      rewrite He. clear He.
      set (m2 := if mt d q i =? DFA_OUTPUT_CANDIDATE then MInv else m) in *.
      assert (Hm2 : m2 <> MUninit) by (unfold m2; destruct (_ =? _); [discriminate|exact Hm]).
      assert (Hm2' : mt d q i <> DFA_OUTPUT_CANDIDATE -> m2 = m).
      { intros E. unfold m2. apply Z.eqb_neq in E. rewrite E. reflexivity. }
      assert (HL : L ++ t_open_obj d q i ++ t_ms d q i ms ++ t_close d q i txt = L3).
      { unfold L3. rewrite <- !app_assoc. reflexivity. }
      destruct p as [e0 Q'| |]; cbn [before after in_arr] in *.
      + destruct Hbef as [[S' ->] ->]. cbn [qs_pop bind].
        eexists. split; [reflexivity|]. cbn [tl]. unfold t_close_elem. cbn [andb].
        rewrite app_nil_r, HL. reflexivity.
      + destruct Hbef as [S' ->].
        assert (Hfin : L ++ t_open_obj d q i ++ t_ms d q i ms ++ t_close d q i txt ++ t_close_elem d true q i
                       = L3 ++ t_close_elem d true q i).
        { unfold L3. rewrite <- !app_assoc. reflexivity. }
        rewrite Hfin. unfold t_close_elem in *. cbn [andb] in *.
        unfold incr. cbn [q_state q_count q_ms].
        rewrite (gmt_ok d q (i + 1) m2 Hd Hq). cbn [bind].
        rewrite (mt_pred d q (i + 1) i Hd Hq).
        destruct (mt d q i =? DFA_PREDICATE).
        * rewrite addTuple_ok by exact Hf4. cbn [bind].
          eexists. split; [reflexivity|]. exists m2. auto.
        * rewrite app_nil_r. cbn [bind]. eexists. split; [reflexivity|]. exists m2. auto.
      + subst S. cbn [bind]. eexists. split; [reflexivity|]. unfold t_close_elem. cbn [andb].
        rewrite app_nil_r, HL. exists m2. auto.
    - (* array *)
      intros w es IH p S Q q i m L pre post cp tb _ Hbef Hm Hq HQ HS Hb Hf.
      rewrite t_val_arr in *. set (txt := text (JArr w es)) in *.
      apply fits_mid in Hf as (Hf1 & Hf2 & Hf3).
      cbn [stack_need] in HS.
      destruct (next_ok d q i m None Hd Hq) as [_ Hnv].
      set (m1 := if mt d q i =? DFA_OUTPUT_CANDIDATE then MAt (zlen pre) else m).
      assert (Hm1 : m1 <> MUninit) by (unfold m1; destruct (_ =? _); [discriminate|exact Hm]).
      assert (Hm1' : mt d q i <> DFA_OUTPUT_CANDIDATE -> m1 = m).
      { intros E. unfold m1. apply Z.eqb_neq in E. rewrite E. reflexivity. }
      set (qn := nx d q i None) in *.
      assert (Hopen : do_lb d (zlen pre + 1) (mkCore S Q (mkElt q i m) L)
                      = Ok (mkCore (SLB :: S) (mkElt q i m1 :: Q) (mkElt qn 0 MInv) (L ++ t_open_arr d q i))).
      { unfold do_lb. cbn [c_ss c_qs c_cur c_tl].
        rewrite (gmt_ok d q i m Hd Hq). cbn [bind]. unfold t_open_arr, m1 in *.
        destruct (Z.eqb_spec (mt d q i) DFA_OUTPUT_CANDIDATE) as [E|E].
        - rewrite E in *. cbn [bind]. unfold set_ms. cbn [q_state q_count].
          rewrite (proj1 (next_ok d q i _ None Hd Hq)). cbn [bind].
          rewrite !push_ok by lia. cbn. rewrite app_nil_r.
          do 3 f_equal. f_equal. f_equal. lia.
        - destruct (mt d q i =? DFA_CONDITION).
          + cbn [q_state]. rewrite addTuple_ok by exact Hf1. cbn [bind].
            rewrite (proj1 (next_ok d q i _ None Hd Hq)). cbn [bind].
            rewrite !push_ok by lia. reflexivity.
          + cbn [bind]. rewrite (proj1 (next_ok d q i _ None Hd Hq)). cbn [bind].
            rewrite !push_ok by lia. rewrite app_nil_r. reflexivity. }
      cbn [ev_val]. fold txt. cbn [foldM core_step e_tok e_next].
      rewrite Hopen. cbn [bind]. rewrite foldM_app.
      destruct (IH S (mkElt q i m1 :: Q) qn 0 MInv (L ++ t_open_arr d q i)
                (pre ++ B "[" ++ w) (B "]" ++ post) (zlen pre + 1)) as (m' & Hm' & Hbody).
      { discriminate. } { exact Hnv. } { cbn [List.length]. lia. } { lia. }
      { rewrite Hb. unfold txt. cbn [text]. leq. } { exact Hf2. }
      replace (zlen (pre ++ B "[" ++ w)) with (zlen pre + 1 + zlen w) in Hbody.
      2:{ change (B "[") with ["["%char]. zlc. }
      rewrite Hbody; clear Hbody.
      cbn [bind foldM core_step e_tok e_next].
      unfold do_rb. cbn [c_ss c_qs c_cur c_tl qs_top].
      rewrite (emit_close_ok pre txt post (mkElt q i m1) _ q i m1 Hb Hq Hm1); [|intros E; unfold m1; rewrite E; reflexivity|reflexivity|exact Hf3].
      cbn [bind].
      replace (((L ++ t_open_arr d q i) ++ t_es d qn 0 es) ++ t_close d q i txt)
        with (L ++ t_open_arr d q i ++ t_es d qn 0 es ++ t_close d q i txt)
        by (rewrite <- !app_assoc; reflexivity).
      destruct p as [e0 Q'| |]; cbn [before after in_arr] in *.
      + destruct Hbef as [[S' ->] ->]. cbn [qs_pop bind].
        eexists. split; reflexivity.
      + destruct Hbef as [S' ->]. cbn [qs_pop bind].
        eexists. split; [reflexivity|]. exists m1. auto.
      + subst S. cbn [qs_pop bind]. eexists. split; [reflexivity|]. exists m1. auto.
    - (* no members *)
      intros S Q q i m L pre post cp _ _ _ _ _ _. cbn. rewrite app_nil_r. reflexivity.
    - (* member *)
      intros p k v IHv ms IHms S Q q i m L pre post cp Hm Hq HQ HS Hb Hf.
      rewrite t_ms_cons in *. cbn [need_ms] in *. apply fits_app in Hf as [Hf1 Hf2].
      destruct (next_ok d q i m (Some k) Hd Hq) as [Hn Hnv].
      set (qn := nx d q i (Some k)) in *.
      cbn [ev_ms].
      set (oc := zlen pre + zlen (w_before p) + zlen k + 2 + zlen (w_colon p)).
      set (ov := oc + 1 + zlen (w_value p)).
      set (oe := ov + zlen (text v) + zlen (w_after p)).
      cbv zeta. cbn [foldM core_step e_tok].
      unfold do_ky at 1. cbn [c_ss c_qs c_cur c_tl]. rewrite Hn. cbn [bind].
      rewrite !push_ok by lia.
      rewrite foldM_app.
      cbn [text_ms] in Hb.
      set (pre2 := pre ++ w_before p ++ (DQ :: k ++ [DQ]) ++ w_colon p ++ B ":" ++ w_value p).
      assert (Hp2 : zlen pre2 = ov).
      { unfold pre2, ov, oc. change (B ":") with [":"%char]. zlc. }
      destruct (IHv (InKey (mkElt q i m) Q) (SKY :: S) (mkElt q i m :: Q) qn 0 MInv L pre2
                  (w_after p ++ match ms with MNil => [] | _ => B "," ++ text_ms ms end ++ post)
                  oc (lead_bt (w_after p))) as (c & Hrun & Haft).
      { discriminate. } { split; [eauto|reflexivity]. } { discriminate. } { exact Hnv. }
      { cbn [List.length]. lia. } { cbn [List.length]. lia. }
      { rewrite Hb. unfold pre2. leq. } { exact Hf1. }
      rewrite Hp2 in Hrun. rewrite Hrun. cbn [bind].
      cbn [after in_arr tl] in Haft. subst c.
      destruct ms as [|p' k' v' ms'].
      + cbn. rewrite app_nil_r. reflexivity.
      + set (ms1 := MCons p' k' v' ms') in *.
        cbn [foldM core_step e_tok bind].
        assert (Hrest := IHms S Q q i m (L ++ t_val d false qn 0 v)
                  (pre2 ++ text v ++ w_after p ++ B ",") post (oe + 1) Hm Hq HQ).
        replace (zlen (pre2 ++ text v ++ w_after p ++ B ",")) with (oe + 1) in Hrest.
        2:{ unfold oe. change (B ",") with [","%char]. zlc. }
        rewrite Hrest.
        * rewrite <- app_assoc. reflexivity.
        * lia.
        * rewrite Hb. unfold pre2, ms1. leq.
        * exact Hf2.
    - (* no elements *)
      intros S Q q i m L pre post cp Hm _ _ _ _ _. exists m. split; [exact Hm|].
      cbn. rewrite app_nil_r, Z.add_0_r. reflexivity.
    - (* element *)
      intros wb v IHv wa es IHes S Q q i m L pre post cp Hm Hq HQ HS Hb Hf.
      rewrite t_es_cons in *. cbn [need_es es_len] in *. apply fits_app in Hf as [Hf1 Hf2].
      cbn [ev_es].
      set (ov := zlen pre + zlen wb).
      set (oe := ov + zlen (text v) + zlen wa).
      cbv zeta. rewrite foldM_app.
      cbn [text_es] in Hb.
      destruct (IHv InArr (SLB :: S) Q q i m L (pre ++ wb)
                  (wa ++ match es with ENil => [] | _ => B "," ++ text_es es end ++ post)
                  cp (lead_bt wa)) as (c & Hrun & Haft).
      { discriminate. } { cbn. eauto. } { exact Hm. } { exact Hq. }
      { cbn [List.length]. lia. } { cbn [List.length]. lia. }
      { rewrite Hb. leq. } { exact Hf1. }
      replace (zlen (pre ++ wb)) with ov in Hrun by (unfold ov; zlc).
      rewrite Hrun. cbn [bind].
      cbn [after in_arr] in Haft. destruct Haft as (m' & Hm' & _ & ->).
      destruct es as [|wb' v' wa' es'].
      + exists m'. split; [exact Hm'|]. cbn. rewrite app_nil_r. reflexivity.
      + set (es1 := ECons wb' v' wa' es') in *.
        cbn [foldM core_step e_tok bind].
        destruct (IHes S Q q (i + 1) m' (L ++ t_val d true q i v)
                  (pre ++ wb ++ text v ++ wa ++ B ",") post (oe + 1)) as (m2 & Hm2 & Hrest).
        { exact Hm'. } { exact Hq. } { exact HQ. } { lia. }
        { rewrite Hb. unfold es1. leq. } { exact Hf2. }
        replace (zlen (pre ++ wb ++ text v ++ wa ++ B ",")) with (oe + 1) in Hrest.
        2:{ unfold oe, ov. change (B ",") with [","%char]. zlc. }
        exists m2. split; [exact Hm2|]. rewrite Hrest.
        do 2 f_equal.
        * f_equal. lia.
        * rewrite <- app_assoc. reflexivity.
  Qed.
End Machine.

(** A whole document. *)
Theorem exec_doc d dc c : dfa_ok d -> wf_doc dc = true -> lex_safe (d_val dc) = true ->
  lead_blanks (d_pre dc) = O ->
  c_ss c = [] -> c_qs c = [] -> q_ms (c_cur c) <> MUninit ->
  valid_state d (q_state (c_cur c)) ->
  (stack_need (d_val dc) <= 100)%nat ->
  fits (c_tl c) (t_val d false (q_state (c_cur c)) (q_count (c_cur c)) (d_val dc)) ->
  exists ms', ms' <> MUninit /\
    (mt d (q_state (c_cur c)) (q_count (c_cur c)) <> DFA_OUTPUT_CANDIDATE -> ms' = q_ms (c_cur c)) /\
    executeAutomaton d (doc_text dc) c
    = Ok (mkCore [] [] (mkElt (q_state (c_cur c)) (q_count (c_cur c)) ms')
            (c_tl c ++ t_val d false (q_state (c_cur c)) (q_count (c_cur c)) (d_val dc))).
Proof.
  intros Hd Hwf Hsafe Hlead Hss Hqs Hms Hq Hneed Hf.
  pose proof (doc_no_nul dc Hwf) as Hnn.
  unfold executeAutomaton. rewrite (lex_doc dc Hwf Hsafe). cbn [bind].
  rewrite c_string_id by exact Hnn.
  destruct c as [ss qs [q i m] L]. cbn [c_ss c_qs c_cur c_tl q_state q_count q_ms] in *. subst ss qs.
  assert (Hc : is_container (d_val dc) = true).
  { unfold wf_doc in Hwf. andb_split. assumption. }
  assert (Hl : lead_blanks (doc_text dc) = O).
  { unfold doc_text. destruct (d_pre dc) as [|x l]; cbn in *.
    - destruct (d_val dc); try discriminate; reflexivity.
    - destruct (Ascii.eqb x " "%char); [discriminate|reflexivity]. }
  destruct (proj1 (machine_all d Hd (doc_text dc) Hl Hnn) (d_val dc) AtRoot [] [] q i m L
              (d_pre dc) (d_post dc) 0 0) as (c & Hrun & Haft).
  { congruence. } { reflexivity. } { exact Hms. } { exact Hq. } { cbn; lia. } { cbn; lia. }
  { reflexivity. } { exact Hf. }
  unfold doc_events. rewrite Hrun. destruct Haft as (ms' & H1 & H2 & ->).
  exists ms'. auto.
Qed.
