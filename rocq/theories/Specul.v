(** A worker that starts in all states at once follows, for every start state, the
    serial engine started in that state, if no slice belongs to that state. *)
From Verif Require Import Base Util Lexer Dfa Constraint Stream TreeSem Worker Chains WorkRep Shared MalSpec NestSpec Single.
From Coq Require Import Permutation.
Open Scope Z_scope.

(** Token sequences in which every bracket meets its partner, inside of something
    that is open all the time, with at most [D] things open. *)
Fixpoint nest (D : nat) (l : list opened) (ts : list token) : Prop :=
  match ts with
  | [] => True
  | t :: ts' =>
      l <> [] /\
      match t with
      | TLCB | TLB => value_here l = true /\ (List.length l < D)%nat
      | TKY _ => value_here l = false /\ (List.length l < D)%nat
      | TPRI _ => value_here l = true
      | TRCB => hd_error l = Some OBrace
      | TRB => hd_error l = Some OBracket
      | TCOM => True
      | TEND => False
      end /\ nest D (onto l t) ts'
  end.
(** Where a brace closes an element of an array, another token than an opening brace
    follows. *)
Fixpoint followed (l : list opened) (ts : list token) : Prop :=
  match ts with
  | [] => True
  | t :: ts' => (t = TRCB -> hd_error (onto l t) = Some OBracket -> exists t1 ts1, ts' = t1 :: ts1 /\ t1 <> TLCB) /\ followed (onto l t) ts'
  end.
Definition text_ok (t : token) : Prop := match t with TKY k => zlen k <= 998 | TPRI s => zlen s <= 998 | _ => True end.

(** A run of the serial engine that is followed: the start state, the elements
    below the start, the tuples before it, what was open then. *)
Record track : Type := mkTrack { tr_root : Z; tr_below : list elt; tr_old : list tuple; tr_open : list opened }.

Section Specul.
  Variable d : dfa.
  Hypothesis Hd : dfa_ok d.
  Hypothesis Hkind : forall a, In a (d_accept d) -> 0 <= a <= 3.
  Variable D : nat.
  Hypothesis HD : (D <= 98)%nat.
  Notation R0 := (List.length (d_accept d)).

  Lemma R_states : Z.of_nat R0 = nstates d.
  Proof. rewrite <- (ok_accept d Hd). reflexivity. Qed.
  Lemma R_pos : (0 < R0)%nat.
  Proof. pose proof R_states. pose proof (ok_states d Hd). lia. Qed.

  Definition acc (st : Z) : Z := get (getDFAAcceptType d st) 0.
  (** No slice belongs to the state. *)
  Definition free (st : Z) : Prop := zread (d_range d) st = Ok (0, 0).
  (** The matched type of an element; [b]: as a node of the lowest level. *)
  Definition ty (b : bool) (e : elt) : Z := get (matchedType d b (q_state e) (q_count e)) 0.
  Definition hit (b : bool) (e : elt) : bool := selects false (ty b e).
  Definition inc (b : bool) (e : elt) : bool := ty b e =? DFA_INCOMPLETE_INDEX.
  (** The element of a filter, the value of a field that a filter tests. *)
  Definition filt (b : bool) (e : elt) : bool := ty b e =? DFA_PREDICATE.
  Definition tested (b : bool) (e : elt) : bool := ty b e =? DFA_CONDITION.
  (** The state that follows. *)
  Definition move (b : bool) (inp : option bytes) (e : elt) : Z := get (next_at d b (q_state e) (q_count e) inp) 0.

  Lemma state_reads st : valid_state d st -> exists lo hi, getDFAAcceptType d st = Ok (acc st) /\ zread (d_range d) st = Ok (lo, hi) /\ 0 <= acc st <= 3.
  Proof.
    intros H. destruct (zread_ok (d_accept d) st) as (a & Ea & Hin); [rewrite (ok_accept d Hd); exact H|].
    destruct (zread_ok (d_range d) st) as ([lo hi] & Er & _); [rewrite (ok_range d Hd); exact H|]. exists lo, hi. unfold acc, getDFAAcceptType. rewrite Ea. cbn [get]. auto.
  Qed.
  Lemma acc_cases st : valid_state d st -> acc st = 0 \/ acc st = DFA_OUTPUT_CANDIDATE \/ acc st = DFA_PREDICATE \/ acc st = DFA_CONDITION.
  Proof. intros H. destruct (state_reads _ H) as (_ & _ & _ & _ & Ha). revert Ha. generalize (acc st). clear. unfold DFA_OUTPUT_CANDIDATE, DFA_PREDICATE, DFA_CONDITION. lia. Qed.
  Lemma ty_ok b e : valid_state d (q_state e) -> matchedType d b (q_state e) (q_count e) = Ok (ty b e).
  Proof.
    intros H. destruct (state_reads _ H) as (lo & hi & Ea & Er & _). unfold ty, matchedType, getDFAArrayIndex. rewrite Ea, Er. cbn [bind].
    destruct (acc (q_state e) =? DFA_OUTPUT_CANDIDATE), b; repeat match goal with |- context[if ?x then _ else _] => destruct x end; reflexivity.
  Qed.
  Lemma ty_cases b e : valid_state d (q_state e) ->
    (acc (q_state e) = DFA_OUTPUT_CANDIDATE /\ (ty b e = 0 \/ ty b e = DFA_OUTPUT_CANDIDATE \/ ty b e = DFA_UNSELECTED_CANDIDATE)) \/
    (acc (q_state e) <> DFA_OUTPUT_CANDIDATE /\ (ty b e = 0 \/ ty b e = DFA_INCOMPLETE_INDEX \/ ty b e = acc (q_state e))).
  Proof.
    intros H. destruct (state_reads _ H) as (lo & hi & Ea & Er & Ha). unfold ty, matchedType, getDFAArrayIndex. rewrite Ea, Er. cbn [bind].
    destruct (Z.eqb_spec (acc (q_state e)) DFA_OUTPUT_CANDIDATE) as [Eq|Eq]; [left|right]; (split; [exact Eq|]); destruct b; repeat match goal with |- context[if ?x then _ else _] => destruct x end; cbn; auto.
  Qed.
  Lemma hit_acc b e : valid_state d (q_state e) -> hit b e = true -> acc (q_state e) = DFA_OUTPUT_CANDIDATE.
  Proof.
    intros H. unfold hit. destruct (ty_cases b e H) as [[Ho _]|[Ho [-> | [-> | ->]]]]; [auto|discriminate..|].
    destruct (acc_cases _ H) as [E | [E | [E | E]]]; rewrite E; (discriminate || congruence).
  Qed.
  Lemma inc_acc b e : valid_state d (q_state e) -> inc b e = true -> acc (q_state e) <> DFA_OUTPUT_CANDIDATE.
  Proof. intros H. unfold inc. destruct (ty_cases b e H) as [[_ [-> | [-> | ->]]]|[Ho _]]; [discriminate..|auto]. Qed.
  Lemma pred_acc b e : valid_state d (q_state e) -> filt b e = true -> acc (q_state e) = DFA_PREDICATE.
  Proof. intros H. unfold filt. destruct (ty_cases b e H) as [[_ [-> | [-> | ->]]]|[_ [-> | [-> | ->]]]]; try discriminate. intros E. apply Z.eqb_eq in E. exact E. Qed.
  Lemma cond_acc b e : valid_state d (q_state e) -> tested b e = true -> acc (q_state e) = DFA_CONDITION.
  Proof. intros H. unfold tested. destruct (ty_cases b e H) as [[_ [-> | [-> | ->]]]|[_ [-> | [-> | ->]]]]; try discriminate. intros E. apply Z.eqb_eq in E. exact E. Qed.
  (** Above the lowest level: the type that the serial engine finds. *)
  Lemma ty_upper e : valid_state d (q_state e) -> (ty false e = 0 /\ acc (q_state e) = DFA_OUTPUT_CANDIDATE) \/ ty false e = acc (q_state e).
  Proof.
    intros H. destruct (state_reads _ H) as (lo & hi & Ea & Er & Ha). unfold ty, matchedType, getDFAArrayIndex. rewrite Ea, Er. cbn [bind].
    destruct (Z.eqb_spec (acc (q_state e)) DFA_OUTPUT_CANDIDATE) as [Eq|Eq]; [|auto]. destruct (negb _); auto.
  Qed.
  Lemma hit_upper e : valid_state d (q_state e) -> hit false e = (ty false e =? DFA_OUTPUT_CANDIDATE).
  Proof.
    intros H. unfold hit, selects. destruct (ty_upper e H) as [[-> _]| ->]; [reflexivity|].
    destruct (acc_cases _ H) as [-> | [-> | [-> | ->]]]; reflexivity.
  Qed.
  Lemma inc_upper e : valid_state d (q_state e) -> inc false e = false.
  Proof.
    intros H. unfold inc. destruct (ty_upper e H) as [[-> _]| ->]; [reflexivity|]. destruct (acc_cases _ H) as [-> | [-> | [-> | ->]]]; reflexivity.
  Qed.
  Lemma ty_free e b : valid_state d (q_state e) -> free (q_state e) -> ty b e = acc (q_state e).
  Proof.
    intros H Hf. destruct (state_reads _ H) as (lo & hi & Ea & Er & Ha). unfold free in Hf. unfold ty, matchedType, getDFAArrayIndex. rewrite Ea, Hf. cbn [bind].
    destruct (acc (q_state e) =? DFA_OUTPUT_CANDIDATE), b; reflexivity.
  Qed.
  Lemma ty_plain e : valid_state d (q_state e) -> acc (q_state e) = 0 -> ty false e = 0.
  Proof. intros H E. destruct (ty_upper e H) as [[-> _]| ->]; auto. Qed.
  Lemma pred_count e e' : q_state e = q_state e' -> valid_state d (q_state e) -> filt false e = filt false e'.
  Proof.
    intros E H. assert (H' : valid_state d (q_state e')) by (rewrite <- E; exact H). unfold filt.
    destruct (ty_upper e H) as [[-> Ho]| ->], (ty_upper e' H') as [[-> Ho']| ->]; rewrite ?E in *; try reflexivity; rewrite ?Ho, ?Ho'; reflexivity.
  Qed.
  Lemma gmt_ok e : valid_state d (q_state e) -> getMatchedType d e = Ok (ty false e).
  Proof.
    intros H. destruct (state_reads _ H) as (lo & hi & Ea & Er & Ha). unfold getMatchedType, in_range, ty, matchedType, getDFAArrayIndex. rewrite Ea, Er. cbn [bind].
    destruct (acc (q_state e) =? DFA_OUTPUT_CANDIDATE); [|reflexivity]. cbn [get]. destruct (_ || _); reflexivity.
  Qed.
  Lemma move_ok b inp e : valid_state d (q_state e) -> next_at d b (q_state e) (q_count e) inp = Ok (move b inp e) /\ valid_state d (move b inp e).
  Proof.
    intros H. destruct (state_reads _ H) as (lo & hi & Ea & Er & Ha). unfold move, next_at, in_range_at, getDFAArrayIndex. rewrite Er. cbn [bind].
    destruct (dns_ok d (q_state e) inp Hd H) as (s & Es & Hs). destruct (_ || _); [rewrite Es; auto|]. split; [reflexivity|]. cbn. pose proof (ok_states d Hd). unfold valid_state. lia.
  Qed.
  Lemma move_next e inp : valid_state d (q_state e) -> next_elt d e inp = Ok (mkElt (move false inp e) 0 MInv).
  Proof.
    intros H. destruct (state_reads _ H) as (lo & hi & Ea & Er & Ha). unfold move, next_at, in_range_at, next_elt, in_range, getDFAArrayIndex. rewrite Er. cbn [bind].
    destruct (dns_ok d (q_state e) inp Hd H) as (s & Es & Hs). destruct (_ || _); [rewrite Es|]; reflexivity.
  Qed.
  (** From a state without a slice. *)
  Definition succ (inp : option bytes) (st : Z) : Z := get (dfaNextStateByStr d st inp) 0.
  Lemma move_free b inp e : free (q_state e) -> move b inp e = succ inp (q_state e).
  Proof. intros H. unfold free in H. unfold move, next_at, in_range_at, getDFAArrayIndex. rewrite H. reflexivity. Qed.
  Lemma ty_ext b e e' : q_state e = q_state e' -> q_count e = q_count e' -> ty b e = ty b e'.
  Proof. intros E1 E2. unfold ty. rewrite E1, E2. reflexivity. Qed.
  Lemma move_ext b inp e e' : q_state e = q_state e' -> q_count e = q_count e' -> move b inp e = move b inp e'.
  Proof. intros E1 E2. unfold move. rewrite E1, E2. reflexivity. Qed.

  (** * The loop bodies *)
  Definition good (n : tnode) : Prop := valid_state d (t_state n) /\ t_ms n <> MUninit.
  Definition allgood (L : list seg) : Prop := Forall (Forall (fun p => good (fst p))) L.
  Definition g_open (cb b : bool) (next : Z) (e : elt) : elt * option wval :=
    if hit b e then (set_ms e (MAt (next - 1)), None)
    else (e, if cb && filt b e then Some (VText (B "{")) else if tested b e then Some (VText []) else None).
  Definition g_close (b rb : bool) (next : Z) (e : elt) : elt * option wval :=
    match q_ms e with
    | MAt z => if hit b e then (set_ms e MInv, Some (VSpan z next)) else if rb && inc b e then (e, Some (VText (B "]"))) else (e, None)
    | _ => (e, None)
    end.
  Definition g_elt (b base : bool) (e : elt) : elt * option wval := (incr e, if filt b e || (base && inc b e) then Some (VText (B "}")) else None).
  Definition g_count (e : elt) : elt * option wval := (incr e, None).
  Definition g_pri (b count : bool) (s : bytes) (e : elt) : elt * option wval :=
    (if count then incr e else e, if hit b e || tested b e then Some (VText s) else None).

  Lemma app_lcb b next n : good n -> app1 (on_lcb d false next) b (elt_of n) = Ok (g_open true b next (elt_of n)).
  Proof.
    intros [H _]. pose proof (ty_ok b (elt_of n) H) as E. unfold app1, on_lcb, g_open, hit, filt, tested. rewrite E. cbn [bind andb].
    destruct (selects false (ty b (elt_of n))); [reflexivity|]. destruct (_ =? DFA_PREDICATE); [reflexivity|]. destruct (_ =? DFA_CONDITION); reflexivity.
  Qed.
  Lemma app_lb b next n : good n -> app1 (on_lb d false next) b (elt_of n) = Ok (g_open false b next (elt_of n)).
  Proof.
    intros [H _]. pose proof (ty_ok b (elt_of n) H) as E. unfold app1, on_lb, g_open, hit, filt, tested. rewrite E. cbn [bind andb].
    destruct (selects false (ty b (elt_of n))); [reflexivity|]. destruct (_ =? DFA_CONDITION); reflexivity.
  Qed.
  Lemma app_close b rb buf next n : good n -> app1 (on_close d false rb buf next) b (elt_of n) = Ok (g_close b rb next (elt_of n)).
  Proof.
    intros [H H2]. pose proof (ty_ok b (elt_of n) H) as E. unfold app1, on_close, g_close, hit, inc. change (q_ms (elt_of n)) with (t_ms n).
    destruct (t_ms n) as [|z|] eqn:Em; [reflexivity| |congruence]. cbn [ms_set bind]. rewrite E. cbn [bind]. destruct (selects false (ty b (elt_of n))); [reflexivity|]. destruct (rb && _); reflexivity.
  Qed.
  Lemma app_elt_close b base n : good n -> app1 (on_elt_close d base) b (elt_of n) = Ok (g_elt b base (elt_of n)).
  Proof.
    intros [H _]. pose proof (ty_ok b (elt_of n) H) as E. unfold app1, on_elt_close, g_elt, inc, filt. rewrite E. cbn [bind]. destruct (_ || _); reflexivity.
  Qed.
  Lemma app_count b n : app1 on_count b (elt_of n) = Ok (g_count (elt_of n)).
  Proof. reflexivity. Qed.
  Lemma app_pri b count s n : good n -> zlen s <= 998 -> app1 (on_pri d false count s) b (elt_of n) = Ok (g_pri b count s (elt_of n)).
  Proof.
    intros [H _] Hs. pose proof (ty_ok b (elt_of n) H) as E. unfold app1, on_pri, g_pri, hit, tested. rewrite E. cbn [bind].
    destruct (_ || _); [|destruct count; reflexivity].
    cbn [bind chk]. unfold strcopy, MAX_TEXT. replace (1000 <? zlen s + 2) with false by lia. destruct count; reflexivity.
  Qed.

  Lemma good_mapseg g s : (forall e, q_ms e <> MUninit -> q_ms (fst (g e)) <> MUninit) -> Forall (fun p => good (fst p)) s -> Forall (fun p => good (fst p)) (mapseg g s).
  Proof.
    intros Hg H. unfold mapseg. rewrite Forall_map. eapply Forall_impl; [|exact H]. intros p [H1 H2]. split; cbn; [exact H1|]. apply Hg. exact H2.
  Qed.
  Lemma ms_open cb b next e : q_ms e <> MUninit -> q_ms (fst (g_open cb b next e)) <> MUninit.
  Proof. unfold g_open. destruct (hit b e); cbn; [discriminate|auto]. Qed.
  Lemma ms_close b rb next e : q_ms e <> MUninit -> q_ms (fst (g_close b rb next e)) <> MUninit.
  Proof. unfold g_close. destruct (q_ms e) eqn:E; cbn; try congruence. destruct (hit b e); cbn; [congruence|]. destruct (rb && _); cbn; congruence. Qed.
  Lemma ms_elt b base e : q_ms e <> MUninit -> q_ms (fst (g_elt b base e)) <> MUninit.
  Proof. auto. Qed.
  Lemma ms_count e : q_ms e <> MUninit -> q_ms (fst (g_count e)) <> MUninit.
  Proof. auto. Qed.
  Lemma ms_pri b c s e : q_ms e <> MUninit -> q_ms (fst (g_pri b c s e)) <> MUninit.
  Proof. unfold g_pri. destruct c; auto. Qed.
  Lemma count_close b rb next e : q_count (fst (g_close b rb next e)) = q_count e.
  Proof. unfold g_close. destruct (q_ms e); try reflexivity. destruct (hit b e); [reflexivity|]. destruct (rb && _); reflexivity. Qed.
  Lemma count_open cb b next e : q_count (fst (g_open cb b next e)) = q_count e.
  Proof. unfold g_open. destruct (hit b e); reflexivity. Qed.

  (** * The levels and a serial stack *)
  Definition lowest (L : list seg) : bool := match L with [] => true | _ => false end.
  Definition erw (b o : bool) (n : tnode) (e : elt) : Prop :=
    t_state n = q_state e /\ (b = false -> t_count n = q_count e) /\ (o = true -> hit false e = true -> t_ms n = q_ms e).
  Fixpoint lrel (r : Z) (o : bool) (L : list seg) (es : list elt) : Prop :=
    match L, es with
    | [], [] => True
    | s :: L', e :: es' => (exists n, view r s = Some n /\ erw (lowest L') o n e) /\ lrel r true L' es'
    | _, _ => False
    end.
  Lemma lrel_len r : forall L o es, lrel r o L es -> List.length es = List.length L.
  Proof. induction L as [|s L IH]; intros o [|e es] H; cbn in *; try tauto. destruct H as [_ H]. f_equal. eapply IH. exact H. Qed.
  Lemma erw_weak b o n e : erw b true n e -> erw b o n e.
  Proof. intros (H1 & H2 & H3). split; [exact H1|]. auto. Qed.
  Lemma lrel_weak r o : forall L es, lrel r true L es -> lrel r o L es.
  Proof. intros [|s L] [|e es] H; cbn in *; auto. destruct H as [(n & H1 & H2) H]. split; [|exact H]. exists n. split; [exact H1|]. apply erw_weak, H2. Qed.
  (** A node and the element of a run agree. *)
  Record alike (b : bool) (n : tnode) (e : elt) : Prop := mkAlike {
    al_state : t_state n = q_state e;
    al_count : b = false -> t_count n = q_count e;
    al_ty    : ty b (elt_of n) = ty false e;
    al_inc   : inc b (elt_of n) = false;
    al_move  : forall inp, move b inp (elt_of n) = move false inp e
  }.
  Lemma erw_alike b o n e : erw b o n e -> valid_state d (q_state e) -> (b = true -> free (q_state e)) -> alike b n e.
  Proof.
    intros (H1 & H2 & _) Hv Hf. assert (Hv' : valid_state d (q_state (elt_of n))) by (cbn; rewrite H1; exact Hv). destruct b.
    - specialize (Hf eq_refl). assert (Hf' : free (q_state (elt_of n))) by (cbn; rewrite H1; exact Hf). split; auto.
      + rewrite !ty_free by assumption. cbn. rewrite H1. reflexivity.
      + unfold inc. rewrite ty_free by assumption. destruct (acc_cases _ Hv') as [-> | [-> | [-> | ->]]]; reflexivity.
      + intros inp. rewrite !move_free by assumption. cbn. rewrite H1. reflexivity.
    - split; auto.
      + apply ty_ext; cbn; auto.
      + apply inc_upper, Hv'.
      + intros inp. apply move_ext; cbn; auto.
  Qed.

  (** The top of what is open is an object. *)
  Definition topen (l : list opened) : bool := negb (value_here l).

  Definition vrel (buf : bytes) (v : Z * wval) (t : tuple) : Prop :=
    fst v = fst t /\ zlen (snd t) <= 998 /\
    match snd v with VText s => s = snd t | VSpan b e => substring buf 0 b e = Ok (snd t) end.

  Variable buf : bytes.

  (** Whether every closing brace of an element of an array is followed by another
      token than an opening brace: then the worker knows that it is in an array. *)
  Variable fol : Prop.
  Definition arr_ok (a : Z) : Prop := a = 0 \/ (fol /\ a = DFA_PREDICATE).

  (** * Inside of a unit
      The start states that the unit has, by their numbers. *)
  Section Inner.
  Variable R : nat.
  Variable st : Z -> Z.
  Hypothesis HRpos : (0 < R)%nat.
  Hypothesis Hsize : Z.of_nat R * (Z.of_nat D + 2) <= MAX_NODE.

  Record tracks (l bs : list opened) (L : list seg) (own : list Z) (kid : Z) (tw : list wtuple) (n : track) (c : core) : Prop := mkTracks {
    tk_root : 0 <= tr_root n < Z.of_nat R;
    tk_base : hd_error (tr_open n) = hd_error bs;
    tk_free : free (st (tr_root n));
    tk_arr  : hd_error bs = Some OBracket -> arr_ok (acc (st (tr_root n)));
    tk_ss   : c_ss c = map sy (l ++ tr_open n);
    tk_len  : (List.length (tr_open n) <= List.length bs)%nat /\ (List.length (tr_below n) <= List.length (tr_open n))%nat;
    tk_es   : exists es, c_cur c :: c_qs c = es ++ tr_below n /\ lrel (tr_root n) (topen (l ++ bs)) L es;
    tk_tl   : exists X, c_tl c = tr_old n ++ X /\ Forall2 (vrel buf) (owned own (vals tw) (kid + tr_root n)) X
  }.
  Record inv (l bs : list opened) (A : track -> core -> Prop) (own : list Z) (kid : Z) (L : list seg) (np : Z) (rp : list Z) (tw : list wtuple) : Prop := mkInv {
    iv_lv    : levels R st L np rp;
    iv_good  : allgood L;
    iv_ch    : chst own kid R tw;
    iv_len   : List.length L = S (nopen l);
    iv_shape : shape (l ++ bs);
    iv_room  : (List.length (l ++ bs) <= D)%nat;
    iv_run   : forall n c, A n c -> tracks l bs L own kid tw n c
  }.
  Definition next_runs (A : track -> core -> Prop) (ev : event) : track -> core -> Prop := fun n c' => exists c, A n c /\ core_step d buf c ev = Ok c'.

  (** What happened to the chains. *)
  Definition grown (kid : Z) (own : list Z) (tw : list wtuple) (own' : list Z) (tw' : list wtuple) : Prop :=
    exists new vs, own' = own ++ new /\ vals tw' = vals tw ++ vs /\ List.length new = List.length vs /\ Forall (fun x => kid <= x) new.
  Lemma grown_refl kid own tw : grown kid own tw own tw.
  Proof. exists [], []. rewrite !app_nil_r. repeat split; auto. Qed.
  Lemma grown_trans kid own1 tw1 own2 tw2 own3 tw3 : grown kid own1 tw1 own2 tw2 -> grown kid own2 tw2 own3 tw3 -> grown kid own1 tw1 own3 tw3.
  Proof.
    intros (n1 & v1 & -> & E1 & L1 & F1) (n2 & v2 & -> & E2 & L2 & F2). exists (n1 ++ n2), (v1 ++ v2). rewrite E2, E1, !app_assoc. repeat split; auto.
    - rewrite !app_length. congruence.
    - apply Forall_app. auto.
  Qed.

  Lemma view_good r s n : view r s = Some n -> Forall (fun p : tnode * list Z => good (fst p)) s -> good n.
  Proof. intros H Hg. apply view_in in H as (rs & H & _). rewrite Forall_forall in Hg. apply (Hg _ H). Qed.

  Lemma base_view s np rp r n : levels R st [s] np rp -> view r s = Some n -> t_state n = st r.
  Proof.
    intros (_ & _ & _ & _ & _ & Hb) Hv. destruct (view_in _ _ _ Hv) as (rs & Hi & Hr). unfold base_ok in Hb.
    assert (Hin : In (t_state n, t_pend n, t_root n, rs) (map (fun r => (st r, Some (-1), Some (0, -1), [r])) (iota R))).
    { rewrite <- Hb. apply in_map_iff. exists (n, rs). auto. }
    apply in_map_iff in Hin as (x & E & _). injection E as <- _ _ <-. destruct Hr as [<-|[]]. reflexivity.
  Qed.
  Lemma levels_flag s L np rp : levels R st (s :: L) np rp -> Forall (fun p => rootp (fst p) = lowest L) s.
  Proof.
    intros (_ & _ & _ & H). destruct L as [|s2 L]; [|destruct H as (np' & rp' & _ & _ & _ & H); exact H]. destruct H as (_ & _ & Hb). apply Forall_forall. intros [n rs] Hi. unfold base_ok in Hb.
    assert (Hin : In (t_state n, t_pend n, t_root n, rs) (map (fun r => (st r, Some (-1), Some (0, -1), [r])) (iota R))).
    { rewrite <- Hb. apply in_map_iff. exists (n, rs). auto. }
    apply in_map_iff in Hin as (x & E & _). injection E as _ _ E _. cbn [fst lowest]. unfold rootp. rewrite <- E. reflexivity.
  Qed.
  Lemma top_alike s L np rp r o nd e : levels R st (s :: L) np rp -> Forall (fun p => good (fst p)) s -> view r s = Some nd -> erw (lowest L) o nd e -> free (st r) -> alike (lowest L) nd e /\ valid_state d (q_state e).
  Proof.
    intros HL Hg Hv He Hf. destruct (view_good _ _ _ Hv Hg) as [Hvalid _]. pose proof (proj1 He) as Hst. rewrite Hst in Hvalid. split; [|exact Hvalid].
    eapply erw_alike; [exact He|exact Hvalid|]. intros E. destruct L; [|discriminate]. rewrite <- Hst, (base_view _ _ _ _ _ HL Hv). exact Hf.
  Qed.

  Variable junk : bytes.
  Notation wstep := (worker_step d false (Some (iota R0)) None junk buf).
  Definition W (ss sh : list sym) (own : list Z) (kid : Z) (L : list seg) (np : Z) (rp : list Z) (tw : list wtuple) (us : list unit_) (u : unit_) : wstate :=
    mkW ss sh (QS R own kid L np rp) (rng L) tw us u.

  Lemma rng_mapseg g s L : rng (mapseg g s :: L) = rng (s :: L).
  Proof. cbn [rng]. rewrite mapseg_zlen. reflexivity. Qed.
  Lemma rng_second g t s L : rng (t :: mapseg g s :: L) = rng (t :: s :: L).
  Proof. unfold rng. rewrite !fl_zlen, mapseg_zlen. reflexivity. Qed.

  (** Loops of the worker. *)
  Lemma wloop f g ss sh own kid s L np rp tw us u : levels R st (s :: L) np rp -> chst own kid R tw ->
    (forall n, good n -> app1 f (lowest L) (elt_of n) = Ok (g (elt_of n))) -> Forall (fun p => good (fst p)) s -> zlen tw + Z.of_nat R <= MAX_TUPLE_LIST ->
    exists own' tw', loop_cur f (W ss sh own kid (s :: L) np rp tw us u) = Ok (W ss sh own' kid (mapseg g s :: L) np rp tw' us u) /\
      added R own tw kid (fun r => out_for g r s) own' tw' /\ zlen tw' = zlen tw + weight g s.
  Proof.
    intros HL Hc Hf Hg Hm. unfold loop_cur, loop, W. cbn [ws_cur ws_qs ws_tl].
    destruct (Shared.loop_top R st f g s L np rp own kid tw HL Hc) as (own' & tw' & E & Ha & Hn); auto.
    { pose proof (levels_flag _ _ _ _ HL) as Hfl. rewrite Forall_forall in *. intros p Hp. rewrite (Hfl p Hp). apply Hf, Hg, Hp. }
    exists own', tw'. rewrite E. cbn [bind]. unfold with_loop. cbn [ws_ss ws_shadow ws_cur ws_units ws_unit fst snd]. rewrite rng_mapseg. auto.
  Qed.
  Lemma wloop2 f g ss sh own kid t s L np rp tw us u : levels R st (t :: s :: L) np rp -> chst own kid R tw ->
    (forall n, good n -> app1 f (lowest L) (elt_of n) = Ok (g (elt_of n))) -> Forall (fun p => good (fst p)) s -> zlen tw + Z.of_nat R <= MAX_TUPLE_LIST ->
    exists own' tw', loop f (rng (s :: L)) (W ss sh own kid (t :: s :: L) np rp tw us u) = Ok (W ss sh own' kid (t :: mapseg g s :: L) np rp tw' us u) /\
      added R own tw kid (fun r => out_for g r s) own' tw' /\ zlen tw' = zlen tw + weight g s.
  Proof.
    intros HL Hc Hf Hg Hm. unfold loop, W. cbn [ws_cur ws_qs ws_tl].
    destruct (Shared.loop_second R st f g t s L np rp own kid tw HL Hc) as (own' & tw' & E & Ha & Hn); auto.
    { destruct (levels_tail R st _ _ _ _ _ HL) as (np' & rp' & _ & HL'). pose proof (levels_flag _ _ _ _ HL') as Hfl. rewrite Forall_forall in *. intros p Hp. rewrite (Hfl p Hp). apply Hf, Hg, Hp. }
    exists own', tw'. rewrite E. cbn [bind]. unfold with_loop. cbn [ws_ss ws_shadow ws_cur ws_units ws_unit fst snd]. rewrite rng_second. auto.
  Qed.
  Lemma wpop ss sh own kid t s L np rp tw us u : levels R st (t :: s :: L) np rp ->
    exists np' rp', pop_query (W ss sh own kid (t :: s :: L) np rp tw us u) = Ok (W ss sh own kid (s :: L) np' rp' tw us u) /\ levels R st (s :: L) np' rp'.
  Proof.
    intros HL. destruct (pop_ok R st t s L np rp own kid HL) as (np' & rp' & E & H). exists np', rp'. unfold pop_query, W. cbn [ws_qs]. rewrite E. auto.
  Qed.
  Lemma grown_added own tw kid o own' tw' : added R own tw kid o own' tw' -> grown kid own tw own' tw'.
  Proof. intros [_ _ H _]. exact H. Qed.

  (** The tuples of a run when the loop over a level adds some. *)
  Lemma tl_add own tw kid g s own' tw' r n T0 X v : added R own tw kid (fun r => out_for g r s) own' tw' -> 0 <= r < Z.of_nat R -> view r s = Some n ->
    Forall2 (vrel buf) (owned own (vals tw) (kid + r)) X ->
    (match snd (g (elt_of n)) with Some x => exists t, v = [t] /\ vrel buf (t_state n, x) t | None => v = [] end) ->
    exists X', (T0 ++ X) ++ v = T0 ++ X' /\ Forall2 (vrel buf) (owned own' (vals tw') (kid + r)) X'.
  Proof.
    intros Ha Hr Hv HX Hg. exists (X ++ v). split; [rewrite app_assoc; reflexivity|]. rewrite (ad_own _ _ _ _ _ _ _ Ha r Hr). apply Forall2_app; [exact HX|].
    unfold out_for. rewrite Hv. destruct (snd (g (elt_of n))) as [x|]; [|subst v; constructor]. destruct Hg as (t & -> & Ht). constructor; [exact Ht|constructor].
  Qed.
  Lemma tl_same own tw kid g s own' tw' r X : added R own tw kid (fun r => out_for g r s) own' tw' -> 0 <= r < Z.of_nat R -> (forall e, snd (g e) = None) ->
    Forall2 (vrel buf) (owned own (vals tw) (kid + r)) X -> Forall2 (vrel buf) (owned own' (vals tw') (kid + r)) X.
  Proof.
    intros Ha Hr Hg HX. rewrite (ad_own _ _ _ _ _ _ _ Ha r Hr). unfold out_for. destruct (view r s) as [n|]; [rewrite Hg|]; rewrite app_nil_r; exact HX.
  Qed.

  Definition same_unit (t : token) (u u' : unit_) : Prop := un_syms u' = un_syms u /\ un_pruned u' = un_pruned u /\ (un_state u' = UNIT_MATCHED \/ (t = TCOM /\ u' = u)).
  Definition ok_step (t : token) (l' bs : list opened) (A' : track -> core -> Prop) (own : list Z) (kid : Z) (tw : list wtuple) (us : list unit_) (u : unit_) (r : res wstate) : Prop :=
    exists sh' own' L' np' rp' tw' u', r = Ok (W (map sy l') sh' own' kid L' np' rp' tw' us u') /\ (sh' = [] \/ sh' = [SLB]) /\
      inv l' bs A' own' kid L' np' rp' tw' /\ grown kid own tw own' tw' /\ zlen tw' <= zlen tw + Z.of_nat R /\ same_unit t u u'.

  Lemma started_same u p t : same_unit t u (started u p).
  Proof. unfold same_unit, started. destruct (Z.eqb_spec (un_state u) UNIT_MATCHED); cbn; auto. Qed.
  Lemma room_ok l bs : (List.length (l ++ bs) <= D)%nat -> forall x, push (map sy l) x = x :: map sy l.
  Proof. intros H x. apply TreeSem.push_ok. rewrite map_length. rewrite app_length in H. lia. Qed.
  Lemma room_run l bs n : (List.length (l ++ bs) <= D)%nat -> (List.length (tr_open n) <= List.length bs)%nat /\ (List.length (tr_below n) <= List.length (tr_open n))%nat ->
    forall x, push (map sy (l ++ tr_open n)) x = x :: map sy (l ++ tr_open n).
  Proof. intros H [H' _] x. apply TreeSem.push_ok. rewrite map_length, app_length. rewrite app_length in H. lia. Qed.
  Lemma topen_cons o l : topen (o :: l) = match o with OBrace => true | _ => false end.
  Proof. destruct o; reflexivity. Qed.
  Lemma topen_here l : value_here l = true -> topen l = false.
  Proof. unfold topen. intros ->. reflexivity. Qed.
  Lemma topen_brace l : value_here l = false -> topen l = true.
  Proof. unfold topen. intros ->. reflexivity. Qed.

  Lemma al_hit b n e : alike b n e -> hit b (elt_of n) = hit false e.
  Proof. intros [_ _ H _ _]. unfold hit. rewrite H. reflexivity. Qed.
  Lemma al_pred b n e : alike b n e -> filt b (elt_of n) = filt false e.
  Proof. intros [_ _ H _ _]. unfold filt. rewrite H. reflexivity. Qed.
  Lemma al_cond b n e : alike b n e -> tested b (elt_of n) = tested false e.
  Proof. intros [_ _ H _ _]. unfold tested. rewrite H. reflexivity. Qed.
  Lemma addTuple_inv cl q s cl' : addTuple cl q s = Ok cl' -> cl' = cl ++ [(q, s)].
  Proof. unfold addTuple. destruct (_ <=? _); [discriminate|]. unfold strcopy. destruct (_ <? _); [discriminate|]. cbn [bind]. intros H. injection H as <-. reflexivity. Qed.

  (** What the serial engine does at an opening bracket and at the end of an element. *)
  Definition opened_at (z : Z) (e : elt) : elt := if hit false e then set_ms e (MAt (z - 1)) else e.
  Definition opening (cb : bool) (e : elt) : list tuple :=
    if hit false e then [] else if cb && filt false e then [(q_state e, B "{")] else if tested false e then [(q_state e, [])] else [].
  Definition closing (e : elt) : list tuple := if filt false e then [(q_state e, B "}")] else [].
  Lemma lcb_step c ev c' : e_tok ev = TLCB -> valid_state d (q_state (c_cur c)) -> core_step d buf c ev = Ok c' ->
    c' = mkCore (push (c_ss c) SLCB) (c_qs c) (opened_at (e_next ev) (c_cur c)) (c_tl c ++ opening true (c_cur c)).
  Proof.
    intros Et Hv H. unfold core_step in H. rewrite Et in H. unfold do_lcb in H. rewrite (gmt_ok _ Hv) in H. cbn [bind] in H.
    unfold opened_at, opening, filt, tested. rewrite (hit_upper _ Hv). cbn [andb]. destruct (_ =? DFA_OUTPUT_CANDIDATE); [injection H as <-; rewrite app_nil_r; reflexivity|].
    destruct (_ =? DFA_PREDICATE); [|destruct (_ =? DFA_CONDITION)]; [| |injection H as <-; rewrite app_nil_r; reflexivity];
      (destruct (addTuple _ _ _) as [cl|] eqn:E; [|discriminate]; cbn [bind] in H; apply addTuple_inv in E; subst cl; injection H as <-; reflexivity).
  Qed.
  Lemma lb_step c ev c' : e_tok ev = TLB -> valid_state d (q_state (c_cur c)) -> core_step d buf c ev = Ok c' ->
    c' = mkCore (push (c_ss c) SLB) (push (c_qs c) (opened_at (e_next ev) (c_cur c))) (mkElt (move false None (c_cur c)) 0 MInv) (c_tl c ++ opening false (c_cur c)).
  Proof.
    intros Et Hv H. unfold core_step in H. rewrite Et in H. unfold do_lb in H. rewrite (gmt_ok _ Hv) in H. cbn [bind] in H.
    assert (Hmv : move false None (opened_at (e_next ev) (c_cur c)) = move false None (c_cur c)) by (apply move_ext; unfold opened_at; destruct (hit _ _); reflexivity).
    rewrite <- Hmv. clear Hmv. unfold opened_at, opening, filt, tested. rewrite (hit_upper _ Hv). cbn [andb]. destruct (_ =? DFA_OUTPUT_CANDIDATE); [cbn [bind] in H; rewrite move_next in H by exact Hv; injection H as <-; rewrite app_nil_r; reflexivity|].
    destruct (_ =? DFA_CONDITION); cbn [bind] in H; [|rewrite move_next in H by exact Hv; injection H as <-; rewrite app_nil_r; reflexivity].
    destruct (addTuple _ _ _) as [cl|] eqn:E; [|discriminate]. cbn [bind] in H. apply addTuple_inv in E. subst cl. rewrite move_next in H by exact Hv. injection H as <-. reflexivity.
  Qed.
  Lemma pri_step c ev c' s0 x ss1 : e_tok ev = TPRI s0 -> c_ss c = x :: ss1 -> valid_state d (q_state (c_cur c)) -> core_step d buf c ev = Ok c' ->
    let cl := c_tl c ++ (if hit false (c_cur c) || tested false (c_cur c) then [(q_state (c_cur c), s0)] else []) in
    c' = match x with SKY => mkCore ss1 (snd (qs_pop (c_qs c))) (fst (qs_pop (c_qs c))) cl | SLB => mkCore (x :: ss1) (c_qs c) (incr (c_cur c)) cl | SLCB => mkCore (x :: ss1) (c_qs c) (c_cur c) cl end.
  Proof.
    intros Et Es Hv H. unfold core_step in H. rewrite Et in H. unfold do_pri in H. rewrite Es, (gmt_ok _ Hv) in H. cbn [bind] in H. cbv zeta.
    unfold tested. rewrite (hit_upper _ Hv). destruct (_ || _).
    - destruct (addTuple _ _ _) as [cl|] eqn:E; [|discriminate]. cbn [bind] in H. apply addTuple_inv in E. subst cl. destruct x; [injection H as <-; reflexivity|injection H as <-; reflexivity|]. destruct (qs_pop (c_qs c)). injection H as <-. reflexivity.
    - cbn [bind] in H. rewrite app_nil_r. destruct x; [injection H as <-; reflexivity|injection H as <-; reflexivity|]. destruct (qs_pop (c_qs c)). injection H as <-. reflexivity.
  Qed.
  Lemma open_run cb b nd e z : alike b nd e ->
    match snd (g_open cb b z (elt_of nd)) with Some x => exists t, opening cb e = [t] /\ vrel buf (t_state nd, x) t | None => opening cb e = [] end.
  Proof.
    intros Hal. unfold g_open, opening. rewrite (al_hit _ _ _ Hal), (al_pred _ _ _ Hal), (al_cond _ _ _ Hal). destruct (hit false e); [reflexivity|]. cbn [snd].
    destruct (cb && filt false e); [|destruct (tested false e); [|reflexivity]]; (eexists; split; [reflexivity|]; unfold vrel; cbn; rewrite (al_state _ _ _ Hal); repeat split; auto; unfold zlen; cbn; lia).
  Qed.
  Lemma erw_open cb b o nd e z : alike b nd e ->
    erw b o (set_elt nd (q_count (fst (g_open cb b z (elt_of nd)))) (q_ms (fst (g_open cb b z (elt_of nd))))) (opened_at z e).
  Proof.
    intros Hal. pose proof Hal as [H1 H2 _ _ _]. unfold g_open, opened_at. rewrite (al_hit _ _ _ Hal). destruct (hit false e) eqn:E; cbn; split; auto; split; auto. intros _. cbn. congruence.
  Qed.
  Lemma opened_free z e : q_state (opened_at z e) = q_state e /\ q_count (opened_at z e) = q_count e.
  Proof. unfold opened_at. destruct (hit _ _); auto. Qed.
  Lemma step_lcb ev rest l bs A own kid L np rp tw us u sh : inv l bs A own kid L np rp tw -> e_tok ev = TLCB -> sh = [] \/ sh = [SLB] ->
    value_here (l ++ bs) = true -> (List.length (l ++ bs) < D)%nat -> zlen tw + Z.of_nat R <= MAX_TUPLE_LIST ->
    ok_step TLCB (OBrace :: l) bs (next_runs A ev) own kid tw us u (wstep ev rest (W (map sy l) sh own kid L np rp tw us u)).
  Proof.
    intros [Hlv Hg Hc Hl Hs Hr HA] Et Hsh Hv Hroom Hm. unfold worker_step. rewrite Et. unfold w_lcb, with_unit, with_ss. cbn [ws_ss ws_shadow ws_qs ws_cur ws_tl ws_units ws_unit W].
    rewrite (room_ok l bs Hr). destruct L as [|s L]; [destruct Hlv|]. apply Forall_cons_iff in Hg as [Hg1 Hg2].
    destruct (wloop (on_lcb d false (e_next ev)) (g_open true (lowest L) (e_next ev)) (SLCB :: map sy l) sh own kid s L np rp tw us (started u (e_start ev - 1)) Hlv Hc (app_lcb _ _) Hg1 Hm) as (own' & tw' & E & Ha & Hn).
    unfold W in E. rewrite E. clear E. pose proof (ad_len _ _ _ _ _ _ _ Ha) as Hlen.
    eexists sh, own', _, np, rp, tw', _. split; [reflexivity|]. split; [exact Hsh|]. split; [|split; [eapply grown_added; exact Ha|split; [exact Hlen|apply started_same]]].
    split.
    - apply levels_top, Hlv.
    - constructor; [apply good_mapseg; [apply ms_open|exact Hg1]|exact Hg2].
    - apply (ad_ch _ _ _ _ _ _ _ Ha).
    - exact Hl.
    - cbn [app shape]. split; [exact Hv|exact Hs].
    - cbn [app List.length]. lia.
    - intros n c' (c & Hc0 & Hstep). destruct (HA n c Hc0) as [T1 T2 Tf T3 T4 T5 (es & T6 & T7) (X & T8 & T9)].
      destruct es as [|e es]; [destruct T7|]. destruct T7 as [(nd & Hview & He) T7]. cbn [app] in T6. injection T6 as Ecur Eqs.
      destruct (top_alike _ _ _ _ _ _ _ _ Hlv Hg1 Hview He Tf) as [Hal Hvalid]. rewrite <- Ecur in Hvalid.
      apply (lcb_step c ev c' Et Hvalid) in Hstep. subst c'.
      assert (Hlen' : push (c_ss c) SLCB = map sy ((OBrace :: l) ++ tr_open n)).
      { rewrite T4. apply (room_run l bs n (Nat.lt_le_incl _ _ Hroom) T5). }
      destruct (tl_add own tw kid _ s own' tw' (tr_root n) nd (tr_old n) X (opening true e) Ha T1 Hview T9 (open_run _ _ _ _ _ Hal)) as (X' & EX & HX).
      split; cbn [c_ss c_qs c_cur c_tl]; auto.
      + exists (opened_at (e_next ev) e :: es). cbn [app]. rewrite Ecur, Eqs. split; [reflexivity|]. cbn [lrel]. split; [|exact T7].
        rewrite view_mapseg, Hview. eexists. split; [reflexivity|]. apply erw_open, Hal.
      + exists X'. rewrite Ecur, T8. split; [exact EX|exact HX].
  Qed.

  Lemma npush inp own kid s L np rp : levels R st (s :: L) np rp -> (List.length (s :: L) <= D)%nat -> Forall (fun p => good (fst p)) s ->
    exists s' np' rp', queryStacksPush d (QS R own kid (s :: L) np rp) (rng (s :: L)) inp = Ok (QS R own kid (s' :: s :: L) np' rp', rng (s' :: s :: L)) /\
      levels R st (s' :: s :: L) np' rp' /\ Forall (fun p => good (fst p)) s' /\
      (forall r n, view r s = Some n -> exists n', view r s' = Some n' /\ elt_of n' = mkElt (move (lowest L) inp (elt_of n)) 0 MInv).
  Proof.
    intros HL HDl Hg. cbn [List.length] in HDl.
    destruct (Shared.push_ok R st d inp (move (lowest L) inp) s L np rp own kid HL) as (s' & np' & rp' & E & HL' & Hview & Hall).
    - unfold MAX_STACK, zlen. lia.
    - unfold zlen. nia.
    - exact HRpos.
    - pose proof (levels_flag _ _ _ _ HL) as Hfl. rewrite Forall_forall in *. intros p Hp. rewrite (Hfl p Hp). apply (move_ok (lowest L) inp (elt_of (fst p))), (Hg p Hp).
    - exists s', np', rp'. split; [exact E|]. split; [exact HL'|]. split; [|exact Hview].
      rewrite Forall_forall in *. intros p Hp. destruct (Hall p Hp) as (p0 & Hi & Ee). unfold elt_of in Ee. injection Ee as E1 E2 E3.
      split; [rewrite E1; apply move_ok, (Hg _ Hi)|rewrite E3; discriminate].
  Qed.

  Lemma nopen_app l bs : (nopen l <= List.length (l ++ bs))%nat.
  Proof. rewrite app_length. pose proof (nopen_le l). lia. Qed.
  Lemma nopen_top o l : nopen (o :: l) = match o with OBrace => nopen l | _ => S (nopen l) end.
  Proof. destruct o; reflexivity. Qed.
  Lemma qs_room l bs (L : list seg) n c es : (List.length (l ++ bs) < D)%nat -> List.length L = S (nopen l) -> (List.length (tr_open n) <= List.length bs)%nat /\ (List.length (tr_below n) <= List.length (tr_open n))%nat ->
    c_cur c :: c_qs c = es ++ tr_below n -> List.length es = List.length L -> forall e, push (c_qs c) e = e :: c_qs c.
  Proof.
    intros H1 H2 [H3 H3'] H4 H5 e. apply TreeSem.push_ok. apply (f_equal (@List.length _)) in H4. cbn in H4. rewrite app_length in *. pose proof (nopen_le l). lia.
  Qed.

  Lemma step_ky ev rest l bs A own kid L np rp tw us u sh k : inv l bs A own kid L np rp tw -> e_tok ev = TKY k -> sh = [] \/ sh = [SLB] ->
    value_here (l ++ bs) = false -> (List.length (l ++ bs) < D)%nat -> zlen tw + Z.of_nat R <= MAX_TUPLE_LIST ->
    ok_step (TKY k) (OKey :: l) bs (next_runs A ev) own kid tw us u (wstep ev rest (W (map sy l) sh own kid L np rp tw us u)).
  Proof.
    intros [Hlv Hg Hc Hl Hs Hr HA] Et Hsh Hv Hroom Hm. unfold worker_step. rewrite Et. unfold w_ky, with_unit, prune. cbn [ws_ss ws_shadow ws_qs ws_cur ws_tl ws_units ws_unit W].
    match goal with |- ok_step _ _ _ _ _ _ _ _ _ (bind (match ?x with _ => _ end) _) => replace (match x with [] => _ | _ => _ end) with (Ok (W (map sy l) sh own kid L np rp tw us (started u (e_start ev - 1)))) by (destruct x; reflexivity) end.
    cbn [bind ws_qs ws_cur W]. destruct L as [|s L]; [destruct Hlv|]. apply Forall_cons_iff in Hg as [Hg1 Hg2]. pose proof (nopen_app l bs) as Hno.
    destruct (npush (Some k) own kid s L np rp Hlv ltac:(lia) Hg1) as (s' & np' & rp' & E & HL' & Hg' & Hview'). rewrite E. clear E. cbn [bind].
    unfold with_qs, with_ss. cbn [ws_ss ws_shadow ws_qs ws_cur ws_tl ws_units ws_unit W fst snd]. rewrite (room_ok l bs Hr).
    eexists sh, own, _, np', rp', tw, _. split; [reflexivity|]. split; [exact Hsh|]. split; [|split; [apply grown_refl|split; [lia|apply started_same]]].
    split.
    - exact HL'.
    - constructor; [exact Hg'|]. constructor; assumption.
    - exact Hc.
    - rewrite nopen_top. cbn [List.length] in *. lia.
    - cbn [app shape]. split; [exact Hv|exact Hs].
    - cbn [app List.length]. lia.
    - intros n c' (c & Hc0 & Hstep). destruct (HA n c Hc0) as [T1 T2 Tf T3 T4 T5 (es & T6 & T7) (X & T8 & T9)].
      pose proof (qs_room l bs (s :: L) n c es Hroom Hl T5 T6 (lrel_len _ _ _ _ T7)) as Hpush.
      destruct es as [|e es]; [destruct T7|]. pose proof T7 as [(nd & Hview & He) T7']. cbn [app] in T6. injection T6 as Ecur Eqs.
      destruct (top_alike _ _ _ _ _ _ _ _ Hlv Hg1 Hview He Tf) as [[Hst Hct Hh _ Hmv] Hvalid]. rewrite <- Ecur in Hvalid.
      unfold core_step in Hstep. rewrite Et in Hstep. unfold do_ky in Hstep. rewrite (move_next _ _ Hvalid) in Hstep. cbn [bind] in Hstep. injection Hstep as <-.
      split; cbn [c_ss c_qs c_cur c_tl]; auto.
      + rewrite T4. apply (room_run l bs n (Nat.lt_le_incl _ _ Hroom) T5).
      + exists (mkElt (move false (Some k) e) 0 MInv :: e :: es). rewrite Hpush. cbn [app]. rewrite Ecur, Eqs. split; [reflexivity|].
        destruct (Hview' _ _ Hview) as (n' & Hv' & En'). rewrite Hmv in En'. unfold elt_of in En'. injection En' as N1 N2 N3.
        change (lrel (tr_root n) (topen ((OKey :: l) ++ bs)) (s' :: s :: L) (mkElt (move false (Some k) e) 0 MInv :: e :: es)) with
          ((exists nd, view (tr_root n) s' = Some nd /\ erw false false nd (mkElt (move false (Some k) e) 0 MInv)) /\ lrel (tr_root n) true (s :: L) (e :: es)).
        split; [exists n'; split; [exact Hv'|]; split; cbn; [congruence|split; [auto|discriminate]]|]. rewrite (topen_brace _ Hv) in T7. exact T7.
      + exists X. auto.
  Qed.

  Lemma step_lb ev rest l bs A own kid L np rp tw us u sh : inv l bs A own kid L np rp tw -> e_tok ev = TLB -> sh = [] \/ sh = [SLB] ->
    value_here (l ++ bs) = true -> (List.length (l ++ bs) < D)%nat -> zlen tw + Z.of_nat R <= MAX_TUPLE_LIST ->
    ok_step TLB (OBracket :: l) bs (next_runs A ev) own kid tw us u (wstep ev rest (W (map sy l) sh own kid L np rp tw us u)).
  Proof.
    intros [Hlv Hg Hc Hl Hs Hr HA] Et Hsh Hv Hroom Hm. unfold worker_step. rewrite Et. unfold w_lb, with_unit, prune. cbn [ws_ss ws_shadow ws_qs ws_cur ws_tl ws_units ws_unit W bind].
    destruct L as [|s L]; [destruct Hlv|]. apply Forall_cons_iff in Hg as [Hg1 Hg2].
    destruct (wloop (on_lb d false (e_next ev)) (g_open false (lowest L) (e_next ev)) (map sy l) sh own kid s L np rp tw us (started u (e_start ev - 1)) Hlv Hc (app_lb _ _) Hg1 Hm) as (own' & tw' & E & Ha & Hn).
    unfold W in E. rewrite E. clear E. pose proof (ad_len _ _ _ _ _ _ _ Ha) as Hlen. cbn [bind ws_qs ws_cur].
    pose proof (nopen_app l bs) as Hno.
    pose proof (levels_top R st (g_open false (lowest L) (e_next ev)) s L np rp Hlv) as Hlv1. pose proof (good_mapseg (g_open false (lowest L) (e_next ev)) s (ms_open _ _ _) Hg1) as Hg1'.
    destruct (npush None own' kid _ L np rp Hlv1 ltac:(cbn [List.length] in *; lia) Hg1') as (s' & np' & rp' & E & HL' & Hg' & Hview'). rewrite E. clear E. cbn [bind].
    unfold with_qs, with_ss. cbn [ws_ss ws_shadow ws_qs ws_cur ws_tl ws_units ws_unit W fst snd]. rewrite (room_ok l bs Hr).
    eexists sh, own', _, np', rp', tw', _. split; [reflexivity|]. split; [exact Hsh|]. split; [|split; [eapply grown_added; exact Ha|split; [exact Hlen|apply started_same]]].
    split.
    - exact HL'.
    - constructor; [exact Hg'|]. constructor; assumption.
    - apply (ad_ch _ _ _ _ _ _ _ Ha).
    - rewrite nopen_top. cbn [List.length] in *. lia.
    - cbn [app shape]. split; [exact Hv|exact Hs].
    - cbn [app List.length]. lia.
    - intros n c' (c & Hc0 & Hstep). destruct (HA n c Hc0) as [T1 T2 Tf T3 T4 T5 (es & T6 & T7) (X & T8 & T9)].
      pose proof (qs_room l bs (s :: L) n c es Hroom Hl T5 T6 (lrel_len _ _ _ _ T7)) as Hpush.
      destruct es as [|e es]; [destruct T7|]. pose proof T7 as [(nd & Hview & He) T7']. cbn [app] in T6. injection T6 as Ecur Eqs.
      destruct (top_alike _ _ _ _ _ _ _ _ Hlv Hg1 Hview He Tf) as [Hal Hvalid]. rewrite <- Ecur in Hvalid. pose proof (al_move _ _ _ Hal) as Hmv.
      apply (lb_step c ev c' Et Hvalid) in Hstep. rewrite Hpush in Hstep.
      destruct (tl_add own tw kid _ s own' tw' (tr_root n) nd (tr_old n) X (opening false e) Ha T1 Hview T9 (open_run _ _ _ _ _ Hal)) as (X' & EX & HX).
      set (e' := opened_at (e_next ev) (c_cur c)) in *.
      subst c'. split; cbn [c_ss c_qs c_cur c_tl]; auto.
      + rewrite T4. apply (room_run l bs n (Nat.lt_le_incl _ _ Hroom) T5).
      + exists (mkElt (move false None e) 0 MInv :: e' :: es). cbn [app]. rewrite Ecur, Eqs. split; [reflexivity|].
        assert (Hv1 : view (tr_root n) (mapseg (g_open false (lowest L) (e_next ev)) s) = Some (set_elt nd (q_count (fst (g_open false (lowest L) (e_next ev) (elt_of nd)))) (q_ms (fst (g_open false (lowest L) (e_next ev) (elt_of nd)))))) by (rewrite view_mapseg, Hview; reflexivity).
        destruct (Hview' _ _ Hv1) as (n' & Hv' & En'). rewrite elt_of_set, (move_ext _ _ _ (elt_of nd)), Hmv in En' by (reflexivity || apply count_open). unfold elt_of in En'. injection En' as N1 N2 N3.
        change (lrel (tr_root n) (topen ((OBracket :: l) ++ bs)) (s' :: mapseg (g_open false (lowest L) (e_next ev)) s :: L) (mkElt (move false None e) 0 MInv :: e' :: es)) with
          ((exists nd, view (tr_root n) s' = Some nd /\ erw false false nd (mkElt (move false None e) 0 MInv)) /\
           (exists nd, view (tr_root n) (mapseg (g_open false (lowest L) (e_next ev)) s) = Some nd /\ erw (lowest L) true nd e') /\ lrel (tr_root n) true L es).
        split; [exists n'; split; [exact Hv'|]; split; cbn; [congruence|split; [auto|discriminate]]|]. split; [|exact T7'].
        eexists. split; [exact Hv1|]. unfold e'. rewrite Ecur. apply erw_open, Hal.
      + exists X'. rewrite Ecur, T8. split; [exact EX|exact HX].
  Qed.

  (** Inside of an array nothing points to an object. *)
  Lemma arr_look bs rest t k : nest D (OBracket :: bs) (map e_tok rest) -> (t = TRCB \/ t = TRB \/ exists s, t = TPRI s) -> (match t with TPRI _ => True | _ => k = 1%nat end) ->
    let '(t1, t2) := look rest in inference t t1 t2 k = [] \/ inference t t1 t2 k = [SLB].
  Proof.
    intros Hn Ht Hk. unfold look. destruct rest as [|e1 [|e2 rest]]; cbn [map nest] in Hn.
    - destruct Ht as [->|[->|(s & ->)]]; cbn in *; subst; auto.
    - destruct Hn as (_ & H1 & _). destruct (e_tok e1); cbn in H1; try discriminate; try contradiction; destruct Ht as [->|[->|(s' & ->)]]; cbn in *; subst; auto.
    - destruct Hn as (_ & H1 & H2). destruct (e_tok e1); cbn in H1; try discriminate; try contradiction; try (destruct Ht as [->|[->|(s' & ->)]]; cbn in *; subst; auto; fail).
      cbn [onto nest] in H2. destruct H2 as (_ & H2 & _). destruct (e_tok e2); cbn in H2; try (destruct H2; discriminate); try contradiction; destruct Ht as [->|[->|(s' & ->)]]; cbn in *; subst; auto.
  Qed.
  Lemma infer_ok t rest ss sh own kid L np rp tw us u bs : nest D (OBracket :: bs) (map e_tok rest) -> (t = TRCB \/ t = TRB \/ exists s, t = TPRI s) ->
    (match t with TPRI _ => True | _ => List.length ss = 1%nat end) -> sh = [] \/ sh = [SLB] ->
    exists sh', infer t rest (W ss sh own kid L np rp tw us u) = W ss sh' own kid L np rp tw us u /\ (sh' = [] \/ sh' = [SLB]) /\ ((exists s, t = TPRI s) -> sh' = [SLB]) /\ (sh' = [] -> t = TRCB -> forall t1 ts1, map e_tok rest = t1 :: ts1 -> t1 = TLCB).
  Proof.
    intros Hn Ht Hk [->| ->]; unfold infer; cbn [ws_shadow W ws_ss].
    - pose proof (arr_look bs rest t (List.length ss) Hn Ht Hk) as H.
      assert (Hl : forall t0 ts0, map e_tok rest = t0 :: ts0 -> fst (look rest) = t0) by (intros t0 ts0 E; destruct rest as [|e1 [|e2 rest]]; cbn in *; congruence).
      destruct (look rest) as [t1 t2]. cbn [fst] in Hl. eexists. split; [reflexivity|]. split; [exact H|]. split.
      + intros (x & ->). cbn [inference] in *. destruct H as [H|H]; [|exact H]. destruct (match t1 with TRCB => _ | _ => _ end); discriminate.
      + intros He Hr t0 ts0 Hm. subst t. specialize (Hl t0 ts0 Hm). subst t0. rewrite Hk in He. cbn [inference Nat.eqb] in He. destruct (match t1 with TRCB => _ | _ => _ end); [discriminate|]. destruct t1; try discriminate; [reflexivity|].
        exfalso. rewrite Hm in Hn. cbn [nest] in Hn. destruct Hn as (_ & [] & _).
    - exists [SLB]. split; [reflexivity|]. split; [auto|]. split; [auto|discriminate].
  Qed.

  (** The emission at a closing bracket. *)
  Lemma close_run b0 rb e nd next cl cl' b : good nd -> valid_state d (q_state e) -> alike b0 nd e -> (hit false e = true -> t_ms nd = q_ms e) ->
    emit_close d buf e next cl = Ok (cl', b) ->
    exists v, cl' = cl ++ v /\ match snd (g_close b0 rb next (elt_of nd)) with Some x => exists t, v = [t] /\ vrel buf (t_state nd, x) t | None => v = [] end.
  Proof.
    intros [_ Hms] Hv Hal Ho E. pose proof Hal as [Hst Hct _ Hi _]. unfold emit_close in E. unfold g_close. rewrite (al_hit _ _ _ Hal), Hi, andb_false_r. change (q_ms (elt_of nd)) with (t_ms nd).
    destruct (hit false e) eqn:Eo.
    - rewrite (Ho eq_refl) in *. destruct (q_ms e) as [|z|] eqn:Em; cbn [ms_set bind] in E; [| |congruence].
      + injection E as <- <-. exists []. rewrite app_nil_r. split; reflexivity.
      + rewrite (gmt_ok _ Hv) in E. rewrite (hit_upper _ Hv) in Eo. cbn [bind] in E. rewrite Eo in E. destruct (substring buf 0 z next) as [txt|] eqn:Es; [|discriminate]. cbn [bind] in E.
        unfold addTuple, strcopy, MAX_TEXT in E. destruct (MAX_TUPLE_LIST <=? zlen cl); [discriminate|]. destruct (Z.ltb_spec 1000 (zlen txt + 2)); [discriminate|]. cbn [bind] in E. injection E as <- <-.
        exists [(q_state e, txt)]. split; [reflexivity|]. cbn [snd]. eexists. split; [reflexivity|]. unfold vrel. cbn. repeat split; auto. lia.
    - assert (Ec : cl' = cl).
      { rewrite (hit_upper _ Hv) in Eo. destruct (ms_set (q_ms e)) as [[z|]|]; cbn [bind] in E; [rewrite (gmt_ok _ Hv) in E; cbn [bind] in E; rewrite Eo in E| |discriminate]; injection E as <- _; reflexivity. }
      subst cl'. exists []. rewrite app_nil_r. split; [reflexivity|]. destruct (t_ms nd); reflexivity.
  Qed.

  Lemma same_matched t u : un_state u = UNIT_MATCHED -> same_unit t u u.
  Proof. intros H. split; auto. Qed.

  Lemma step_pri ev rest l bs A own kid L np rp tw us u sh s0 : inv l bs A own kid L np rp tw -> e_tok ev = TPRI s0 -> sh = [] \/ sh = [SLB] ->
    value_here (l ++ bs) = true -> hd_error bs <> Some OKey -> bs <> [] -> nest D (value_done l ++ bs) (map e_tok rest) ->
    Forall text_ok (map e_tok (ev :: rest)) -> (l <> [] -> un_state u = UNIT_MATCHED) -> zlen tw + 2 * Z.of_nat R <= MAX_TUPLE_LIST ->
    ok_step (TPRI s0) (value_done l) bs (next_runs A ev) own kid tw us u (wstep ev rest (W (map sy l) sh own kid L np rp tw us u)).
  Proof.
    intros [Hlv Hg Hc Hl Hs Hr HA] Et Hsh Hv Hk Hne Hn Htx Hu Hm. unfold worker_step. rewrite Et. unfold w_pri. cbn [ws_ss W].
    destruct L as [|s L]; [destruct Hlv|]. apply Forall_cons_iff in Hg as [Hg1 Hg2].
    assert (Htext : zlen s0 <= 998) by (cbn [map] in Htx; apply Forall_cons_iff in Htx as [H _]; rewrite Et in H; exact H).
    destruct l as [|o l].
    - (* at the lowest level, in an array *)
      cbn [map ss_top nth_error]. cbn [app] in *. destruct bs as [|b bs]; [congruence|]. destruct b; [cbn in Hk; congruence|discriminate|].
      cbn [nopen filter List.length] in Hl. destruct L; [|discriminate].
      cbn [ws_shadow W]. set (s1 := match sh with [] => let '(t1, t2) := look rest in clobber (clobber s0 t1) t2 | _ => s0 end). cbv zeta.
      assert (Hs1 : zlen s1 <= 998).
      { unfold s1. destruct sh; [|exact Htext]. cbn [map] in Htx. apply Forall_cons_iff in Htx as [_ Htx].
        assert (Hcl : forall x t, zlen x <= 998 -> text_ok t -> zlen (clobber x t) <= 998) by (intros x [] H1 H2; cbn in *; assumption).
        unfold look. destruct rest as [|e1 [|e2 rest]]; cbn [map] in Htx; repeat (apply Forall_cons_iff in Htx as [? Htx]); repeat apply Hcl; auto; exact I. }
      clearbody s1. change (mkW [] sh (QS R own kid [s] np rp) (rng [s]) tw us u) with (W [] sh own kid [s] np rp tw us u).
      destruct (infer_ok (TPRI s1) rest [] sh own kid [s] np rp tw us u bs Hn ltac:(eauto) I Hsh) as (sh' & E & _ & Hsh' & _). rewrite E. clear E. specialize (Hsh' (ex_intro _ s1 eq_refl)). subst sh'.
      assert (G : forall own' tw' s', levels R st [s'] np rp -> Forall (fun p => good (fst p)) s' -> chst own' kid R tw' ->
         (forall r n, 0 <= r < Z.of_nat R -> view r s = Some n -> exists n', view r s' = Some n' /\ t_state n' = t_state n) ->
         (forall r, 0 <= r < Z.of_nat R -> arr_ok (acc (st r)) -> owned own' (vals tw') (kid + r) = owned own (vals tw) (kid + r)) ->
         inv [] (OBracket :: bs) (next_runs A ev) own' kid [s'] np rp tw').
      { intros own' tw' s' G1 G2 G3 G4 G5. split; auto.
        - constructor; [exact G2|constructor].
        - intros n c' (c & Hc0 & Hstep). destruct (HA n c Hc0) as [T1 T2 Tf T3 T4 T5 (es & T6 & T7) (X & T8 & T9)].
          destruct es as [|e [|? ?]]; [destruct T7| |destruct T7 as [_ []]]. destruct T7 as [(nd & Hview & He) _]. cbn [app] in T6. injection T6 as Ecur Eqs.
          destruct (top_alike _ _ _ _ _ _ _ _ Hlv Hg1 Hview He Tf) as [[Hst Hct Hh _ _] Hvalid]. pose proof (base_view _ _ _ _ _ Hlv Hview) as Hroot. specialize (T3 eq_refl).
          rewrite <- Ecur in Hvalid. assert (Ety : hit false (c_cur c) = false /\ tested false (c_cur c) = false).
          { assert (Ea : arr_ok (acc (q_state (c_cur c)))) by (rewrite Ecur, <- Hst, Hroot; exact T3). split; [destruct (hit false (c_cur c)) eqn:Eh; [apply (hit_acc false _ Hvalid) in Eh; rewrite Eh in Ea|reflexivity]|destruct (tested false (c_cur c)) eqn:Eh; [apply (cond_acc false _ Hvalid) in Eh; rewrite Eh in Ea|reflexivity]];
            destruct Ea as [Ea|[_ Ea]]; discriminate. }
          destruct Ety as [Ety1 Ety2].
          destruct (tr_open n) as [|b' ob] eqn:Eopen; [discriminate|]. cbn in T2. injection T2 as ->.
          apply (pri_step c ev c' s0 SLB (map sy ob) Et T4 Hvalid) in Hstep. cbv zeta in Hstep. rewrite Ety1, Ety2, app_nil_r in Hstep. subst c'.
          split; cbn [c_ss c_qs c_cur c_tl]; rewrite ?Eopen; auto.
          + exists [incr e]. cbn [app]. rewrite Ecur, Eqs. split; [reflexivity|]. cbn [lrel]. split; [|exact I].
            destruct (G4 _ _ T1 Hview) as (n' & Hv' & En'). exists n'. split; [exact Hv'|]. split; [cbn; congruence|]. cbn. split; discriminate.
          + exists X. split; [exact T8|]. rewrite G5 by assumption. exact T9. }
      cbn [ws_shadow W ss_top nth_error].
      { set (u1 := if un_state _ =? UNIT_MATCHED then _ else _). unfold with_unit. cbn [ws_ss ws_shadow ws_qs ws_cur ws_tl ws_units ws_unit W].
        change (mkW [] [SLB] (QS R own kid [s] np rp) (rng [s]) tw us u1) with (W [] [SLB] own kid [s] np rp tw us u1).
        destruct (wloop (on_pri d false true s1) (g_pri true true s1) [] [SLB] own kid s [] np rp tw us u1 Hlv Hc (fun n Hn => app_pri _ true s1 n Hn Hs1) Hg1 ltac:(lia)) as (own' & tw' & E & Ha & _).
        rewrite E. eexists [SLB], own', _, np, rp, tw', u1. split; [reflexivity|]. split; [auto|]. split; [|split; [eapply grown_added; exact Ha|split; [apply (ad_len _ _ _ _ _ _ _ Ha)|]]].
        * apply G.
          -- apply levels_top, Hlv.
          -- apply good_mapseg; [apply ms_pri|exact Hg1].
          -- apply (ad_ch _ _ _ _ _ _ _ Ha).
          -- intros r n _ Hview. rewrite view_mapseg, Hview. eexists. split; reflexivity.
          -- intros r Hr0 Ho. rewrite (ad_own _ _ _ _ _ _ _ Ha r Hr0). unfold out_for. destruct (view r s) as [n|] eqn:Ev; [|apply app_nil_r].
             pose proof (proj1 (view_good _ _ _ Ev Hg1)) as Hvn. rewrite <- (base_view _ _ _ _ _ Hlv Ev) in Ho.
             unfold g_pri. cbn [snd]. destruct (hit true (elt_of n)) eqn:Eh; [exfalso; apply (hit_acc true (elt_of n) Hvn) in Eh; cbn in Eh; rewrite Eh in Ho; destruct Ho as [Ho|[_ Ho]]; discriminate|].
             destruct (tested true (elt_of n)) eqn:Ec; [exfalso; apply (cond_acc true (elt_of n) Hvn) in Ec; cbn in Ec; rewrite Ec in Ho; destruct Ho as [Ho|[_ Ho]]; discriminate|]. apply app_nil_r.
        * unfold u1, same_unit, W. cbn [ws_unit]. destruct (Z.eqb_spec (un_state u) UNIT_MATCHED); cbn; auto. }
    - cbn [map ss_top nth_error]. cbn [app] in Hv.
      destruct (wloop (on_pri d false (match sy o with SLB => true | _ => false end) s0) (g_pri (lowest L) (match sy o with SLB => true | _ => false end) s0) (sy o :: map sy l) sh own kid s L np rp tw us u Hlv Hc (fun n Hn => app_pri _ _ s0 n Hn Htext) Hg1 ltac:(lia)) as (own' & tw' & E & Ha & _).
      rewrite E. clear E. cbn [bind].
      assert (Hrun : forall n c c', A n c -> core_step d buf c ev = Ok c' -> exists e es X nd, c_cur c = e /\ c_qs c = es ++ tr_below n /\ view (tr_root n) s = Some nd /\ alike (lowest L) nd e /\ lrel (tr_root n) true L es /\
                c' = (match sy o with SKY => mkCore (map sy (l ++ tr_open n)) (snd (qs_pop (c_qs c))) (fst (qs_pop (c_qs c))) (tr_old n ++ X) | SLB => mkCore (c_ss c) (c_qs c) (incr (c_cur c)) (tr_old n ++ X) | SLCB => mkCore (c_ss c) (c_qs c) (c_cur c) (tr_old n ++ X) end) /\
                Forall2 (vrel buf) (owned own' (vals tw') (kid + tr_root n)) X).
      { intros n c c' Hc0 Hstep. destruct (HA n c Hc0) as [T1 T2 Tf T3 T4 T5 (es & T6 & T7) (X & T8 & T9)].
        destruct es as [|e es]; [destruct T7|]. destruct T7 as [(nd & Hview & He) T7]. cbn [app] in T6. injection T6 as Ecur Eqs.
        destruct (top_alike _ _ _ _ _ _ _ _ Hlv Hg1 Hview He Tf) as [Hal Hvalid]. pose proof (al_state _ _ _ Hal) as Hst. rewrite <- Ecur in Hvalid.
        apply (pri_step c ev c' s0 (sy o) (map sy (l ++ tr_open n)) Et T4 Hvalid) in Hstep. cbv zeta in Hstep.
        pose proof (fun T v => tl_add own tw kid _ s own' tw' (tr_root n) nd T X v Ha T1 Hview T9) as Hadd. unfold g_pri in Hadd. cbn [snd] in Hadd.
        rewrite (al_hit _ _ _ Hal), (al_cond _ _ _ Hal), Hst, <- Ecur in Hadd.
        destruct (Hadd (tr_old n) (if hit false (c_cur c) || tested false (c_cur c) then [(q_state (c_cur c), s0)] else [])) as (X' & EX & HX).
        { destruct (_ || _); [|reflexivity]. eexists. split; [reflexivity|]. unfold vrel. cbn. auto. }
        rewrite T8, EX in Hstep. exists e, es, X', nd. split; [exact Ecur|]. split; [exact Eqs|]. split; [exact Hview|]. split; [exact Hal|]. split; [exact T7|]. split; [|exact HX].
        rewrite T4. exact Hstep. }
      pose proof (levels_top R st (g_pri (lowest L) match sy o with SLB => true | _ => false end s0) s L np rp Hlv) as Hlv1.
      destruct o; [|discriminate|]; cbn [sy value_done] in *.
      + (* after a key *)
        rewrite nopen_top in Hl. destruct L as [|s2 L]; [discriminate|]. unfold with_ss, ss_pop. cbn [ws_ss ws_shadow ws_qs ws_cur ws_tl ws_units ws_unit tl].
        match goal with |- ok_step _ _ _ _ _ _ _ _ _ (pop_query ?w) => change w with (W (map sy l) sh own' kid (mapseg (g_pri (lowest (s2 :: L)) false s0) s :: s2 :: L) np rp tw' us u) end.
        destruct (wpop (map sy l) sh own' kid _ s2 L np rp tw' us u Hlv1) as (np' & rp' & E & HL'). rewrite E. clear E.
        eexists sh, own', _, np', rp', tw', u. split; [reflexivity|]. split; [exact Hsh|]. split; [|split; [eapply grown_added; exact Ha|split; [apply (ad_len _ _ _ _ _ _ _ Ha)|apply same_matched, Hu; discriminate]]].
        cbn [app shape] in Hs. destruct Hs as [Hs1 Hs2]. split.
        * exact HL'.
        * exact Hg2.
        * apply (ad_ch _ _ _ _ _ _ _ Ha).
        * cbn [List.length] in *. lia.
        * exact Hs2.
        * cbn [app List.length] in Hr. lia.
        * intros n c' (c & Hc0 & Hstep). destruct (Hrun n c c' Hc0 Hstep) as (e & es & X & nd & Ecur & Eqs & Hview & Hal & T7 & -> & HX).
          destruct (HA n c Hc0) as [T1 T2 Tf T3 T4 T5 _ _]. destruct es as [|e2 es]; [destruct T7|]. rewrite Eqs. cbn [app qs_pop fst snd].
          split; cbn [c_ss c_qs c_cur c_tl]; auto.
          -- exists (e2 :: es). split; [reflexivity|]. rewrite (topen_brace _ Hs1). exact T7.
          -- exists X. auto.
      + eexists sh, own', _, np, rp, tw', u. split; [reflexivity|]. split; [exact Hsh|]. split; [|split; [eapply grown_added; exact Ha|split; [apply (ad_len _ _ _ _ _ _ _ Ha)|apply same_matched, Hu; discriminate]]].
        split; auto.
        * constructor; [apply good_mapseg; [apply ms_pri|exact Hg1]|exact Hg2].
        * apply (ad_ch _ _ _ _ _ _ _ Ha).
        * intros n c' (c & Hc0 & Hstep). destruct (Hrun n c c' Hc0 Hstep) as (e & es & X & nd & Ecur & Eqs & Hview & Hal & T7 & -> & HX).
          destruct (HA n c Hc0) as [T1 T2 Tf T3 T4 T5 _ _].
          split; cbn [c_ss c_qs c_cur c_tl]; auto.
          -- exists (incr e :: es). rewrite Ecur, Eqs. split; [reflexivity|]. cbn [app lrel]. rewrite topen_cons. split; [|exact T7].
             rewrite view_mapseg, Hview. eexists. split; [reflexivity|]. split; [apply (al_state _ _ _ Hal)|]. split; [|discriminate]. intros Eb. cbn. rewrite (al_count _ _ _ Hal Eb). reflexivity.
          -- exists X. auto.
  Qed.

  Lemma rcb_step c ev c' x ss1 : e_tok ev = TRCB -> c_ss c = x :: ss1 -> valid_state d (q_state (c_cur c)) -> core_step d buf c ev = Ok c' ->
    exists cl b e1, emit_close d buf (c_cur c) (e_next ev) (c_tl c) = Ok (cl, b) /\ q_state e1 = q_state (c_cur c) /\ q_count e1 = q_count (c_cur c) /\
      match ss1 with
      | SKY :: ss' => c' = mkCore ss' (snd (qs_pop (c_qs c))) (fst (qs_pop (c_qs c))) cl
      | SLB :: ss' => c' = mkCore ss1 (c_qs c) (incr e1) (cl ++ closing (c_cur c))
      | [] => c' = mkCore [] (c_qs c) e1 cl
      | _ => True
      end.
  Proof.
    intros Et Es Hv H. unfold core_step in H. rewrite Et in H. unfold do_rcb in H. rewrite Es in H.
    destruct (emit_close d buf (c_cur c) (e_next ev) (c_tl c)) as [[cl b]|] eqn:Ee; [|discriminate]. cbn [bind] in H.
    exists cl, b, (if b then set_ms (c_cur c) MInv else c_cur c). split; [reflexivity|]. split; [destruct b; reflexivity|]. split; [destruct b; reflexivity|].
    destruct ss1 as [|[] ss1]; [|exact I| |].
    - injection H as <-. reflexivity.
    - rewrite gmt_ok in H by (destruct b; exact Hv). cbn [bind] in H. unfold closing.
      rewrite (pred_count (c_cur c) (incr (if b then set_ms (c_cur c) MInv else c_cur c))) by (destruct b; (reflexivity || exact Hv)). unfold filt.
      destruct (_ =? DFA_PREDICATE); [|injection H as <-; rewrite app_nil_r; reflexivity].
      destruct (addTuple _ _ _) as [cl'|] eqn:E; [|discriminate]. cbn [bind] in H. apply addTuple_inv in E. subst cl'. injection H as <-. destruct b; reflexivity.
    - destruct (qs_pop (c_qs c)). injection H as <-. reflexivity.
  Qed.

  Lemma weight_close b base next s : Forall (fun p => good (fst p)) s -> weight (g_close b false next) s + weight (g_elt b base) (mapseg (g_close b false next) s) <= zlen (flat_map snd s).
  Proof.
    intros Hg. unfold weight, seg_vals. induction s as [|[n rs] s IH]; [cbn; lia|]. apply Forall_cons_iff in Hg as [[Hv _] Hg]. specialize (IH Hg). cbn [flat_map snd mapseg map combine new_vals fst]. rewrite zlen_app. pose proof (zlen_nonneg rs) as H0.
    unfold mapseg in IH. rewrite elt_of_set. set (e' := mkElt _ _ _).
    assert (Hno : snd (g_close b false next (elt_of n)) <> None -> snd (g_elt b base e') = None).
    { unfold g_close, g_elt. cbn [andb]. change (q_ms (elt_of n)) with (t_ms n). destruct (t_ms n) as [|z|]; [intros Hx; exfalso; apply Hx; reflexivity| |intros Hx; exfalso; apply Hx; reflexivity]. destruct (hit b (elt_of n)) eqn:Eh; [intros _|cbn; congruence].
      apply hit_acc in Eh; [|exact Hv]. destruct (filt b e') eqn:Ep; [apply pred_acc in Ep; [|exact Hv]; cbn in Ep, Eh; rewrite Eh in Ep; discriminate|].
      destruct (inc b e') eqn:Ei; [|rewrite andb_false_r; reflexivity]. apply inc_acc in Ei; [|exact Hv]. cbn in Ei, Eh. congruence. }
    destruct (snd (g_close b false next (elt_of n))) as [v|].
    - rewrite Hno by discriminate. rewrite zlen_app. unfold zlen at 1. rewrite map_length. fold (zlen rs). lia.
    - destruct (snd (g_elt b base e')) as [v|]; [|lia]. rewrite zlen_app. unfold zlen at 2. rewrite map_length. fold (zlen rs). lia.
  Qed.
  Lemma step_rcb ev rest l bs A own kid L np rp tw us u sh : inv (OBrace :: l) bs A own kid L np rp tw -> e_tok ev = TRCB -> sh = [] \/ sh = [SLB] ->
    hd_error bs <> Some OKey -> bs <> [] -> nest D (value_done l ++ bs) (map e_tok rest) -> un_state u = UNIT_MATCHED -> zlen tw + 2 * Z.of_nat R <= MAX_TUPLE_LIST ->
    (fol -> hd_error (value_done l ++ bs) = Some OBracket -> exists t1 ts1, map e_tok rest = t1 :: ts1 /\ t1 <> TLCB) ->
    ok_step TRCB (value_done l) bs (next_runs A ev) own kid tw us u (wstep ev rest (W (map sy (OBrace :: l)) sh own kid L np rp tw us u)).
  Proof.
    intros [Hlv Hg Hc Hl Hs Hr HA] Et Hsh Hk Hne Hn Hu Hm Hfol. unfold worker_step. rewrite Et. unfold w_rcb. cbn [ws_ss W map sy].
    destruct L as [|s L]; [destruct Hlv|]. apply Forall_cons_iff in Hg as [Hg1 Hg2]. cbn [app shape] in Hs. destruct Hs as [Hvh Hs].
    destruct (wloop (on_close d false false buf (e_next ev)) (g_close (lowest L) false (e_next ev)) (SLCB :: map sy l) sh own kid s L np rp tw us u Hlv Hc (app_close _ _ _ _) Hg1 ltac:(lia)) as (own1 & tw1 & E & Ha & Hw1).
    change (mkW (SLCB :: map sy l) sh (QS R own kid (s :: L) np rp) (rng (s :: L)) tw us u) with (W (SLCB :: map sy l) sh own kid (s :: L) np rp tw us u). rewrite E. clear E. cbn [bind ws_ss W].
    pose proof (ad_len _ _ _ _ _ _ _ Ha) as Hlen1. pose proof (ad_ch _ _ _ _ _ _ _ Ha) as Hc1.
    pose proof (levels_top R st (g_close (lowest L) false (e_next ev)) s L np rp Hlv) as Hlv1. pose proof (good_mapseg (g_close (lowest L) false (e_next ev)) s (ms_close _ _ _) Hg1) as Hg1'.
    set (s1 := mapseg (g_close (lowest L) false (e_next ev)) s) in *.
    assert (Hrun : forall n c c', A n c -> core_step d buf c ev = Ok c' -> exists e es X nd e1, c_cur c = e /\ c_qs c = es ++ tr_below n /\ view (tr_root n) s1 = Some nd /\ t_state nd = q_state e1 /\ (lowest L = false -> t_count nd = q_count e1) /\ (inc (lowest L) (elt_of nd) = false /\ filt (lowest L) (elt_of nd) = filt false e /\ q_state e1 = q_state e /\ valid_state d (q_state e)) /\ lrel (tr_root n) true L es /\
              Forall2 (vrel buf) (owned own1 (vals tw1) (kid + tr_root n)) X /\
              match l ++ tr_open n with
              | OKey :: l' => c' = mkCore (map sy l') (snd (qs_pop (c_qs c))) (fst (qs_pop (c_qs c))) (tr_old n ++ X)
              | OBracket :: _ => c' = mkCore (map sy (l ++ tr_open n)) (c_qs c) (incr e1) ((tr_old n ++ X) ++ closing e)
              | _ => True
              end).
    { intros n c c' Hc0 Hstep. destruct (HA n c Hc0) as [T1 T2 Tf T3 T4 T5 (es & T6 & T7) (X & T8 & T9)].
      destruct es as [|e es]; [destruct T7|]. cbn [app] in T7. rewrite topen_cons in T7. destruct T7 as [(nd & Hview & He) T7]. cbn [app] in T6. injection T6 as Ecur Eqs.
      pose proof (view_good _ _ _ Hview Hg1) as Hgood. destruct (top_alike _ _ _ _ _ _ _ _ Hlv Hg1 Hview He Tf) as [Hal Hvalid]. pose proof Hal as [Hst Hct _ Hin _]. destruct He as (_ & _ & Hms). pose proof Hvalid as Hvalid'. rewrite <- Ecur in Hvalid.
      cbn [app map] in T4. destruct (rcb_step c ev c' _ _ Et T4 Hvalid Hstep) as (cl & b & e1 & Ee & He1 & Hce1 & Hc').
      rewrite Ecur in Ee. destruct (close_run _ false e nd (e_next ev) _ _ _ Hgood Hvalid' Hal (Hms eq_refl) Ee) as (v & -> & Hv').
      destruct (tl_add own tw kid _ s own1 tw1 (tr_root n) nd (tr_old n) X v Ha T1 Hview T9 Hv') as (X' & EX & HX).
      exists e, es, X'. eexists. exists e1. split; [exact Ecur|]. split; [exact Eqs|]. unfold s1. rewrite view_mapseg, Hview. split; [reflexivity|]. split; [cbn; congruence|]. split; [intros Eb; cbn; rewrite count_close; cbn; rewrite (Hct Eb); congruence|].
      split. { split; [rewrite <- Hin|split; [rewrite <- (al_pred _ _ _ Hal)|split; [congruence|exact Hvalid']]]; rewrite elt_of_set; unfold inc, filt, ty; rewrite count_close; reflexivity. } split; [exact T7|]. split; [exact HX|].
      rewrite T8, EX, Ecur in Hc'. destruct (l ++ tr_open n) as [|[] l']; exact Hc' || exact I. }
    assert (Hcount : forall base own2 tw2 sh', (sh' = [] \/ sh' = [SLB]) -> added R own1 tw1 kid (fun r => out_for (g_elt (lowest L) base) r s1) own2 tw2 -> zlen tw2 = zlen tw1 + weight (g_elt (lowest L) base) s1 -> hd_error (l ++ bs) = Some OBracket ->
       ok_step TRCB l bs (next_runs A ev) own kid tw us u (Ok (W (map sy l) sh' own2 kid (mapseg (g_elt (lowest L) base) s1 :: L) np rp tw2 us u))).
    { intros base own2 tw2 sh' Hsh' Ha2 Hn2 Hhd. eexists sh', own2, _, np, rp, tw2, u. split; [reflexivity|]. split; [exact Hsh'|].
      assert (Hw : zlen tw2 <= zlen tw + Z.of_nat R).
      { pose proof (weight_close (lowest L) base (e_next ev) s) as Hww. fold s1 in Hww. pose proof (proj1 Hlv) as [Hp _]. rewrite (perm_zlen _ _ Hp), iota_zlen in Hww. specialize (Hww Hg1). lia. }
      split; [|split; [eapply grown_trans; eapply grown_added; eassumption|split; [exact Hw|apply same_matched, Hu]]]. split.
      - apply levels_top, Hlv1.
      - constructor; [apply good_mapseg; [apply ms_elt|exact Hg1']|exact Hg2].
      - apply (ad_ch _ _ _ _ _ _ _ Ha2).
      - rewrite nopen_top in Hl. exact Hl.
      - exact Hs.
      - cbn [app List.length] in Hr. lia.
      - intros n c' (c & Hc0 & Hstep). destruct (Hrun n c c' Hc0 Hstep) as (e & es & X & nd & e1 & Ecur & Eqs & Hview & Hst & Hct & Hin & T7 & HX & Hc'). destruct (HA n c Hc0) as [T1 T2 Tf T3 T4 T5 _ _].
        assert (Hhd' : hd_error (l ++ tr_open n) = Some OBracket) by (destruct l; [cbn [app] in *; congruence|exact Hhd]).
        destruct (l ++ tr_open n) as [|[] l'] eqn:El; try discriminate. subst c'. split; cbn [c_ss c_qs c_cur c_tl]; auto.
        + congruence.
        + exists (incr e1 :: es). cbn [app]. rewrite Eqs. split; [reflexivity|]. cbn [lrel]. split; [|exact T7]. rewrite view_mapseg, Hview. eexists. split; [reflexivity|].
          destruct (l ++ bs) as [|[] ?]; try discriminate. split; [cbn; congruence|]. split; [|discriminate]. intros Eb. cbn. rewrite (Hct Eb). reflexivity.
        + destruct Hin as (Hi & Hp & Hse & _). destruct (tl_add own1 tw1 kid _ s1 own2 tw2 (tr_root n) nd (tr_old n) X (closing e) Ha2 T1 Hview HX) as (X' & EX & HX').
          { unfold g_elt. cbn [snd]. rewrite Hi, Hp, andb_false_r, orb_false_r. unfold closing. destruct (filt false e); [|reflexivity]. eexists. split; [reflexivity|]. unfold vrel. cbn. rewrite Hst, Hse. repeat split; auto. unfold zlen. cbn. lia. }
          exists X'. auto. }
    destruct l as [|o l].
    - cbn [map app value_done] in *. destruct bs as [|b bs]; [congruence|]. destruct b; [cbn in Hk; congruence|discriminate|].
      destruct (infer_ok TRCB rest [SLCB] sh own1 kid (s1 :: L) np rp tw1 us u bs Hn ltac:(auto) eq_refl Hsh) as (sh' & E & Hsh' & _ & Hsl).
      change (mkW [SLCB] sh (QS R own1 kid (s1 :: L) np rp) (rng (s1 :: L)) tw1 us u) with (W [SLCB] sh own1 kid (s1 :: L) np rp tw1 us u). rewrite E. clear E.
      destruct Hsh' as [->| ->]; cbn [ws_shadow W ss_top nth_error ws_ss ss_pop tl]; unfold with_ss, ss_pop; cbn [ws_ss ws_shadow ws_qs ws_cur ws_tl ws_units ws_unit W tl].
      + eexists [], own1, (s1 :: L), np, rp, tw1, u. split; [reflexivity|]. split; [auto|]. split; [|split; [eapply grown_added; eassumption|split; [lia|apply same_matched, Hu]]]. split; auto.
        * constructor; assumption.
        * cbn [app List.length] in *. lia.
        * intros n c' (c & Hc0 & Hstep). destruct (Hrun n c c' Hc0 Hstep) as (e & es & X & nd & e1 & Ecur & Eqs & Hview & Hst & Hct & Hin & T7 & HX & Hc'). destruct (HA n c Hc0) as [T1 T2 Tf T3 T4 T5 _ _].
          cbn [app] in Hc'. destruct (tr_open n) as [|o' l'] eqn:El; [discriminate|]. cbn in T2. injection T2 as ->. destruct Hin as (_ & _ & Hse & Hve).
          assert (Een : closing e = []). { unfold closing, filt. rewrite ty_plain; [reflexivity|exact Hve|]. rewrite <- Hse, <- Hst. rewrite !nopen_top in Hl. destruct L; [|discriminate]. rewrite (base_view _ _ _ _ _ Hlv1 Hview). destruct (T3 eq_refl) as [T3'|[T3' _]]; [exact T3'|]. exfalso.
            destruct (Hfol T3' eq_refl) as (t1 & ts1 & Em & Hne1). exact (Hne1 (Hsl eq_refl eq_refl _ _ Em)). }
          rewrite Een, app_nil_r in Hc'. subst c'. split; cbn [c_ss c_qs c_cur c_tl]; rewrite ?El; auto.
          -- exists (incr e1 :: es). rewrite Eqs. split; [reflexivity|]. cbn [lrel]. split; [|exact T7]. exists nd. split; [exact Hview|]. split; [cbn; congruence|]. split; [|discriminate]. destruct L; [discriminate|]. rewrite nopen_top in Hl. discriminate.
          -- exists X. auto.
      + change (mkW [] [SLB] (QS R own1 kid (s1 :: L) np rp) (rng (s1 :: L)) tw1 us u) with (W [] [SLB] own1 kid (s1 :: L) np rp tw1 us u).
        destruct (wloop (on_elt_close d true) (g_elt (lowest L) true) [] [SLB] own1 kid s1 L np rp tw1 us u Hlv1 Hc1 (app_elt_close _ _) Hg1' ltac:(lia)) as (own2 & tw2 & E & Ha2 & Hn2). rewrite E. clear E.
        apply (Hcount true own2 tw2 [SLB]); auto.
    - destruct o; [|discriminate|]; cbn [map sy value_done] in *; unfold with_ss; cbn [ws_ss ws_shadow ws_qs ws_cur ws_tl ws_units ws_unit W].
      + rewrite !nopen_top in Hl. destruct L as [|s2 L]; [discriminate|].
        change (mkW (map sy l) sh (QS R own1 kid (s1 :: s2 :: L) np rp) (rng (s1 :: s2 :: L)) tw1 us u) with (W (map sy l) sh own1 kid (s1 :: s2 :: L) np rp tw1 us u).
        destruct (wpop (map sy l) sh own1 kid s1 s2 L np rp tw1 us u Hlv1) as (np' & rp' & E & HL'). rewrite E. clear E.
        eexists sh, own1, _, np', rp', tw1, u. split; [reflexivity|]. split; [exact Hsh|]. split; [|split; [eapply grown_added; exact Ha|split; [lia|apply same_matched, Hu]]].
        cbn [app shape] in Hs. destruct Hs as [Hs1 Hs2]. split; auto.
        * cbn [app List.length] in Hr. lia.
        * intros n c' (c & Hc0 & Hstep). destruct (Hrun n c c' Hc0 Hstep) as (e & es & X & nd & e1 & Ecur & Eqs & Hview & Hst & Hct & Hin & T7 & HX & Hc'). destruct (HA n c Hc0) as [T1 T2 Tf T3 T4 T5 _ _].
          cbn [app] in Hc'. destruct es as [|e2 es]; [destruct T7|]. rewrite Eqs in Hc'. cbn [app qs_pop fst snd] in Hc'. subst c'. split; cbn [c_ss c_qs c_cur c_tl]; auto.
          -- exists (e2 :: es). split; [reflexivity|]. rewrite (topen_brace _ Hs1). exact T7.
          -- exists X. auto.
      + change (mkW (SLB :: map sy l) sh (QS R own1 kid (s1 :: L) np rp) (rng (s1 :: L)) tw1 us u) with (W (SLB :: map sy l) sh own1 kid (s1 :: L) np rp tw1 us u).
        destruct (wloop (on_elt_close d false) (g_elt (lowest L) false) (SLB :: map sy l) sh own1 kid s1 L np rp tw1 us u Hlv1 Hc1 (app_elt_close _ _) Hg1' ltac:(lia)) as (own2 & tw2 & E & Ha2 & Hn2). rewrite E. clear E.
        apply (Hcount false own2 tw2 sh); auto.
  Qed.

  Lemma rb_step c ev c' x ss1 : e_tok ev = TRB -> c_ss c = x :: ss1 -> core_step d buf c ev = Ok c' ->
    exists cl b, emit_close d buf (qs_top (c_qs c)) (e_next ev) (c_tl c) = Ok (cl, b) /\
      match ss1 with
      | SKY :: ss' => c' = mkCore ss' (snd (qs_pop (snd (qs_pop (c_qs c))))) (fst (qs_pop (snd (qs_pop (c_qs c))))) cl
      | SLB :: ss' => c' = mkCore ss1 (snd (qs_pop (c_qs c))) (incr (fst (qs_pop (c_qs c)))) cl
      | [] => c' = mkCore [] (snd (qs_pop (c_qs c))) (fst (qs_pop (c_qs c))) cl
      | _ => True
      end.
  Proof.
    intros Et Es H. unfold core_step in H. rewrite Et in H. unfold do_rb in H. rewrite Es in H.
    destruct (emit_close d buf (qs_top (c_qs c)) (e_next ev) (c_tl c)) as [[cl b]|] eqn:Ee; [|discriminate]. cbn [bind] in H.
    exists cl, b. split; [reflexivity|].
    destruct ss1 as [|[] ss1]; [|exact I| |]; destruct (qs_pop (c_qs c)) as [e1 q1]; cbn [fst snd]; try (injection H as <-; reflexivity).
    destruct (qs_pop q1) as [e2 q2]. injection H as <-. reflexivity.
  Qed.

  Lemma step_rb ev rest l bs A own kid L np rp tw us u sh : inv (OBracket :: l) bs A own kid L np rp tw -> e_tok ev = TRB -> sh = [] \/ sh = [SLB] ->
    hd_error bs <> Some OKey -> bs <> [] -> nest D (value_done l ++ bs) (map e_tok rest) -> un_state u = UNIT_MATCHED -> zlen tw + 2 * Z.of_nat R <= MAX_TUPLE_LIST ->
    ok_step TRB (value_done l) bs (next_runs A ev) own kid tw us u (wstep ev rest (W (map sy (OBracket :: l)) sh own kid L np rp tw us u)).
  Proof.
    intros [Hlv Hg Hc Hl Hs Hr HA] Et Hsh Hk Hne Hn Hu Hm. unfold worker_step. rewrite Et. unfold w_rb. cbn [ws_ss W map sy].
    rewrite nopen_top in Hl. destruct L as [|t [|s L]]; [discriminate..|]. unfold allgood in Hg. apply Forall_cons_iff in Hg as [Hg0 Hg]. apply Forall_cons_iff in Hg as [Hg1 Hg2]. cbn [app shape] in Hs. destruct Hs as [Hvh Hs].
    cbn [ws_qs QS W k_item tl itm bind].
    destruct (wloop2 (on_close d false true buf (e_next ev)) (g_close (lowest L) true (e_next ev)) (SLB :: map sy l) sh own kid t s L np rp tw us u Hlv Hc (app_close _ _ _ _) Hg1 ltac:(lia)) as (own1 & tw1 & E & Ha & _).
    change (mkW (SLB :: map sy l) sh (QS R own kid (t :: s :: L) np rp) (rng (t :: s :: L)) tw us u) with (W (SLB :: map sy l) sh own kid (t :: s :: L) np rp tw us u). rewrite E. clear E. cbn [bind ws_ss W].
    pose proof (ad_len _ _ _ _ _ _ _ Ha) as Hlen1. pose proof (ad_ch _ _ _ _ _ _ _ Ha) as Hc1.
    pose proof (levels_second R st (g_close (lowest L) true (e_next ev)) t s L np rp Hlv) as Hlv1. pose proof (good_mapseg (g_close (lowest L) true (e_next ev)) s (ms_close _ _ _) Hg1) as Hg1'.
    set (s1 := mapseg (g_close (lowest L) true (e_next ev)) s) in *.
    assert (Hrun : forall n c c', A n c -> core_step d buf c ev = Ok c' -> exists e es X nd, c_qs c = e :: es ++ tr_below n /\ view (tr_root n) s1 = Some nd /\ t_state nd = q_state e /\ (lowest L = false -> t_count nd = q_count e) /\ lrel (tr_root n) true L es /\
              Forall2 (vrel buf) (owned own1 (vals tw1) (kid + tr_root n)) X /\
              match l ++ tr_open n with
              | OKey :: l' => c' = mkCore (map sy l') (snd (qs_pop (es ++ tr_below n))) (fst (qs_pop (es ++ tr_below n))) (tr_old n ++ X)
              | OBracket :: _ => c' = mkCore (map sy (l ++ tr_open n)) (es ++ tr_below n) (incr e) (tr_old n ++ X)
              | _ => True
              end).
    { intros n c c' Hc0 Hstep. destruct (HA n c Hc0) as [T1 T2 Tf T3 T4 T5 (es & T6 & T7) (X & T8 & T9)].
      destruct es as [|e0 [|e es]]; [destruct T7|destruct T7 as [_ []]|]. cbn [lrel] in T7. destruct T7 as [_ [(nd & Hview & He) T7]]. cbn [app] in T6. injection T6 as Ecur Eqs.
      pose proof (view_good _ _ _ Hview Hg1) as Hgood. destruct (levels_tail R st _ _ _ _ _ Hlv) as (np0 & rp0 & _ & Hlv0).
      destruct (top_alike _ _ _ _ _ _ _ _ Hlv0 Hg1 Hview He Tf) as [Hal Hvalid]. pose proof Hal as [Hst Hct _ _ _]. destruct He as (_ & _ & Hms).
      cbn [app map] in T4. destruct (rb_step c ev c' _ _ Et T4 Hstep) as (cl & b & Ee & Hc').
      rewrite Eqs in Ee, Hc'. cbn [qs_top qs_pop fst snd] in Ee, Hc'. destruct (close_run _ true e nd (e_next ev) _ _ _ Hgood Hvalid Hal (Hms eq_refl) Ee) as (v & -> & Hv').
      destruct (tl_add own tw kid _ s own1 tw1 (tr_root n) nd (tr_old n) X v Ha T1 Hview T9 Hv') as (X' & EX & HX).
      exists e, es, X'. eexists. split; [exact Eqs|]. unfold s1. rewrite view_mapseg, Hview. split; [reflexivity|]. split; [cbn; congruence|]. split; [intros Eb; cbn; rewrite count_close; exact (Hct Eb)|]. split; [exact T7|]. split; [exact HX|].
      rewrite T8, EX in Hc'. destruct (l ++ tr_open n) as [|[] l']; exact Hc' || exact I. }
    assert (Hcount : forall np' rp' own2 tw2 sh', levels R st (s1 :: L) np' rp' -> (sh' = [] \/ sh' = [SLB]) -> added R own1 tw1 kid (fun r => out_for g_count r s1) own2 tw2 -> zlen tw2 = zlen tw1 -> hd_error (l ++ bs) = Some OBracket ->
       ok_step TRB l bs (next_runs A ev) own kid tw us u (Ok (W (map sy l) sh' own2 kid (mapseg g_count s1 :: L) np' rp' tw2 us u))).
    { intros np' rp' own2 tw2 sh' Hlv2 Hsh' Ha2 Hn2 Hhd. eexists sh', own2, _, np', rp', tw2, u. split; [reflexivity|]. split; [exact Hsh'|].
      split; [|split; [eapply grown_trans; eapply grown_added; eassumption|split; [lia|apply same_matched, Hu]]]. split.
      - apply levels_top, Hlv2.
      - constructor; [apply good_mapseg; [apply ms_count|exact Hg1']|exact Hg2].
      - apply (ad_ch _ _ _ _ _ _ _ Ha2).
      - cbn [List.length] in *. lia.
      - exact Hs.
      - cbn [app List.length] in Hr. lia.
      - intros n c' (c & Hc0 & Hstep). destruct (Hrun n c c' Hc0 Hstep) as (e & es & X & nd & Eqs & Hview & Hst & Hct & T7 & HX & Hc'). destruct (HA n c Hc0) as [T1 T2 Tf T3 T4 T5 _ _].
        assert (Hhd' : hd_error (l ++ tr_open n) = Some OBracket) by (destruct l; [cbn [app] in *; congruence|exact Hhd]).
        destruct (l ++ tr_open n) as [|[] l'] eqn:El; try discriminate. subst c'. split; cbn [c_ss c_qs c_cur c_tl]; auto.
        + congruence.
        + exists (incr e :: es). split; [reflexivity|]. cbn [lrel]. split; [|exact T7]. rewrite view_mapseg, Hview. eexists. split; [reflexivity|].
          destruct (l ++ bs) as [|[] ?]; try discriminate. split; [cbn; congruence|]. split; [|discriminate]. intros Eb. cbn. rewrite (Hct Eb). reflexivity.
        + exists X. split; [reflexivity|]. eapply tl_same; eauto. }
    destruct l as [|o l].
    - cbn [map app value_done] in *. destruct bs as [|b bs]; [congruence|]. destruct b; [cbn in Hk; congruence|discriminate|].
      destruct (infer_ok TRB rest [SLB] sh own1 kid (t :: s1 :: L) np rp tw1 us u bs Hn ltac:(auto) eq_refl Hsh) as (sh' & E & Hsh' & _).
      change (mkW [SLB] sh (QS R own1 kid (t :: s1 :: L) np rp) (rng (t :: s1 :: L)) tw1 us u) with (W [SLB] sh own1 kid (t :: s1 :: L) np rp tw1 us u). rewrite E. clear E.
      destruct (wpop [] sh' own1 kid t s1 L np rp tw1 us u Hlv1) as (np' & rp' & E & HL').
      destruct Hsh' as [->| ->]; cbn [ws_shadow W ss_top nth_error ws_ss ss_pop tl]; unfold with_ss, ss_pop; cbn [ws_ss ws_shadow ws_qs ws_cur ws_tl ws_units ws_unit W tl].
      + change (mkW [] [] (QS R own1 kid (t :: s1 :: L) np rp) (rng (t :: s1 :: L)) tw1 us u) with (W [] [] own1 kid (t :: s1 :: L) np rp tw1 us u). rewrite E. clear E.
        eexists [], own1, (s1 :: L), np', rp', tw1, u. split; [reflexivity|]. split; [auto|]. split; [|split; [eapply grown_added; eassumption|split; [lia|apply same_matched, Hu]]]. split; auto.
        * constructor; assumption.
        * cbn [app List.length] in *. lia.
        * intros n c' (c & Hc0 & Hstep). destruct (Hrun n c c' Hc0 Hstep) as (e & es & X & nd & Eqs & Hview & Hst & Hct & T7 & HX & Hc'). destruct (HA n c Hc0) as [T1 T2 Tf T3 T4 T5 _ _].
          cbn [app] in Hc'. destruct (tr_open n) as [|o' l'] eqn:El; [discriminate|]. cbn in T2. injection T2 as ->. subst c'. split; cbn [c_ss c_qs c_cur c_tl]; rewrite ?El; auto.
          -- exists (incr e :: es). split; [reflexivity|]. cbn [lrel]. split; [|exact T7]. exists nd. split; [exact Hview|]. split; [cbn; congruence|]. split; [|discriminate]. destruct L; discriminate.
          -- exists X. auto.
      + change (mkW [] [SLB] (QS R own1 kid (t :: s1 :: L) np rp) (rng (t :: s1 :: L)) tw1 us u) with (W [] [SLB] own1 kid (t :: s1 :: L) np rp tw1 us u). rewrite E. clear E. cbn [bind].
        destruct (wloop on_count g_count [] [SLB] own1 kid s1 L np' rp' tw1 us u HL' Hc1 (fun n _ => app_count _ n) Hg1' ltac:(lia)) as (own2 & tw2 & E & Ha2 & Hn2). rewrite E. clear E. rewrite weight_none, Z.add_0_r in Hn2 by reflexivity.
        apply (Hcount np' rp' own2 tw2 [SLB]); auto.
    - destruct o; [|discriminate|]; cbn [map sy value_done] in *; unfold with_ss; cbn [ws_ss ws_shadow ws_qs ws_cur ws_tl ws_units ws_unit W].
      + rewrite !nopen_top in Hl. destruct L as [|s2 L]; [discriminate|].
        change (mkW (map sy l) sh (QS R own1 kid (t :: s1 :: s2 :: L) np rp) (rng (t :: s1 :: s2 :: L)) tw1 us u) with (W (map sy l) sh own1 kid (t :: s1 :: s2 :: L) np rp tw1 us u).
        destruct (wpop (map sy l) sh own1 kid t s1 (s2 :: L) np rp tw1 us u Hlv1) as (np1 & rp1 & E & HL1). rewrite E. clear E. cbn [bind].
        destruct (wpop (map sy l) sh own1 kid s1 s2 L np1 rp1 tw1 us u HL1) as (np' & rp' & E & HL'). rewrite E. clear E.
        eexists sh, own1, _, np', rp', tw1, u. split; [reflexivity|]. split; [exact Hsh|]. split; [|split; [eapply grown_added; exact Ha|split; [lia|apply same_matched, Hu]]].
        cbn [app shape] in Hs. destruct Hs as [Hs1 Hs2]. split; auto.
        * cbn [List.length] in *. lia.
        * cbn [app List.length] in Hr. lia.
        * intros n c' (c & Hc0 & Hstep). destruct (Hrun n c c' Hc0 Hstep) as (e & es & X & nd & Eqs & Hview & Hst & Hct & T7 & HX & Hc'). destruct (HA n c Hc0) as [T1 T2 Tf T3 T4 T5 _ _].
          cbn [app] in Hc'. destruct es as [|e2 es]; [destruct T7|]. cbn [app qs_pop fst snd] in Hc'. subst c'. split; cbn [c_ss c_qs c_cur c_tl]; auto.
          -- exists (e2 :: es). split; [reflexivity|]. rewrite (topen_brace _ Hs1). exact T7.
          -- exists X. auto.
      + change (mkW (SLB :: map sy l) sh (QS R own1 kid (t :: s1 :: L) np rp) (rng (t :: s1 :: L)) tw1 us u) with (W (SLB :: map sy l) sh own1 kid (t :: s1 :: L) np rp tw1 us u).
        destruct (wpop (SLB :: map sy l) sh own1 kid t s1 L np rp tw1 us u Hlv1) as (np' & rp' & E & HL'). rewrite E. clear E. cbn [bind].
        destruct (wloop on_count g_count (SLB :: map sy l) sh own1 kid s1 L np' rp' tw1 us u HL' Hc1 (fun n _ => app_count _ n) Hg1' ltac:(lia)) as (own2 & tw2 & E & Ha2 & Hn2). rewrite E. clear E. rewrite weight_none, Z.add_0_r in Hn2 by reflexivity.
        apply (Hcount np' rp' own2 tw2 sh); auto.
  Qed.

  (** * A step that does not close the lowest container *)
  Lemma done_app l bs : hd_error bs <> Some OKey -> value_done (l ++ bs) = value_done l ++ bs.
  Proof. intros H. destruct l as [|[] l]; try reflexivity. destruct bs as [|[] bs]; try reflexivity. cbn in H. congruence. Qed.
  Lemma onto_app l bs t : hd_error bs <> Some OKey -> (l = [] -> t <> TRCB /\ t <> TRB) -> onto (l ++ bs) t = onto l t ++ bs.
  Proof.
    intros Hk Hl. destruct t; cbn [onto]; try reflexivity; try (apply done_app, Hk);
      (destruct l as [|o l]; [destruct (Hl eq_refl); congruence|cbn [tl app]; apply done_app, Hk]).
  Qed.
  Lemma inv_weak l bs (A A' : track -> core -> Prop) own kid L np rp tw : inv l bs A own kid L np rp tw -> (forall n c, A' n c -> A n c) -> inv l bs A' own kid L np rp tw.
  Proof. intros [] H. split; auto. Qed.

  Lemma inner_step ev rest l bs A own kid L np rp tw us u sh : inv l bs A own kid L np rp tw -> nest D (l ++ bs) (map e_tok (ev :: rest)) -> hd_error bs <> Some OKey -> bs <> [] ->
    Forall text_ok (map e_tok (ev :: rest)) -> (l <> [] -> un_state u = UNIT_MATCHED) -> (l = [] -> e_tok ev <> TRCB /\ e_tok ev <> TRB) -> sh = [] \/ sh = [SLB] ->
    zlen tw + 2 * Z.of_nat R <= MAX_TUPLE_LIST -> (fol -> followed (l ++ bs) (map e_tok (ev :: rest))) ->
    ok_step (e_tok ev) (onto l (e_tok ev)) bs (next_runs A ev) own kid tw us u (wstep ev rest (W (map sy l) sh own kid L np rp tw us u)).
  Proof.
    intros Hi Hn Hk Hne Htx Hu Hcl Hsh Hm Hfol. cbn [map nest] in Hn. destruct Hn as (_ & Ht & Hn). rewrite (onto_app l bs (e_tok ev) Hk Hcl) in Hn.
    destruct (e_tok ev) as [| | | | |k|s|] eqn:Et; cbn [onto] in *.
    - apply step_lcb; try tauto. lia.
    - assert (Hl : l <> []) by (intros ->; destruct (Hcl eq_refl); congruence). destruct l as [|o l]; [congruence|]. cbn [app hd_error] in Ht. injection Ht as ->. cbn [tl] in *. apply step_rcb; try tauto.
      intros Hf Hhd. specialize (Hfol Hf). cbn [map followed] in Hfol. destruct Hfol as [Hfol _]. apply (Hfol Et). rewrite Et. cbn [onto app tl]. rewrite (done_app l bs Hk). exact Hhd.
    - apply step_lb; try tauto. lia.
    - assert (Hl : l <> []) by (intros ->; destruct (Hcl eq_refl); congruence). destruct l as [|o l]; [congruence|]. cbn [app hd_error] in Ht. injection Ht as ->. cbn [tl] in *. apply step_rb; try tauto.
    - unfold worker_step. rewrite Et. exists sh, own, L, np, rp, tw, u. split; [reflexivity|]. split; [exact Hsh|]. split.
      + eapply inv_weak; [exact Hi|]. intros n c (c0 & Hc & E). unfold core_step in E. rewrite Et in E. injection E as <-. exact Hc.
      + split; [apply grown_refl|]. split; [lia|]. repeat split; auto.
    - apply step_ky; try tauto. lia.
    - apply step_pri; try tauto.
    - contradiction.
  Qed.

  End Inner.
End Specul.
