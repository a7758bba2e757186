(** The automaton on any sequence of tokens. *)
From Verif Require Import Base Util Lexer Spec MalSpec LexProof LexMain Dfa Stream TreeSem Builder QueryClass AnyQuery VerbSpec Verbatim LexSafe.
From Coq Require Import Lia.
Open Scope Z_scope.

(** The positions of the tokens increase and stay inside the buffer. *)
Fixpoint placed (top lo : Z) (evs : list event) : Prop :=
  match evs with
  | [] => True
  | e :: r => lo < e_next e <= top /\ placed top (e_next e) r
  end.

Lemma tokens_placed : forall f buf lx evs, tokens_from f buf lx = Ok evs -> 0 <= nxt lx -> placed (zlen buf) (nxt lx) evs.
Proof.
  induction f as [|f IH]; intros buf lx evs H H0; [discriminate|]. cbn [tokens_from] in H.
  destruct (next_facts buf lx H0) as [_ F]. destruct (nextToken buf lx) as [[t lx']|]; [|discriminate]. cbn [bind] in H.
  destruct (F _ _ eq_refl) as [->|Hn]; [injection H as <-; exact I|].
  destruct t; try (injection H as <-; exact I);
    (destruct (tokens_from f buf lx') as [rest|] eqn:Er; [|discriminate]; cbn in H; injection H as <-;
     cbn [placed e_next]; split; [lia|apply IH; [exact Er|lia]]).
Qed.

Section Any.
  Variable d : dfa.
  Hypothesis Hd : dfa_ok d.
  Variable buf : bytes.
  Hypothesis Hbuf : lead_blanks buf = O.

  Definition usable (pos : Z) (e : elt) : Prop :=
    valid_state d (q_state e) /\ match q_ms e with MInv => True | MAt z => 0 <= z <= pos | MUninit => False end.

  Definition sym_of (o : opened) : sym := match o with OKey => SKY | OBrace => SLCB | OBracket => SLB end.
  Definition needs (o : opened) : nat := match o with OBrace => O | _ => 1%nat end.
  Fixpoint need (l : list opened) : nat := match l with [] => O | o :: l' => (needs o + need l')%nat end.

  Record sound (pos : Z) (l : list opened) (c : core) : Prop := {
    so_ss  : c_ss c = map sym_of l;
    so_len : (List.length l <= 100)%nat;
    so_qs  : (need l <= List.length (c_qs c))%nat;
    so_max : (List.length (c_qs c) <= 100)%nat;
    so_cur : usable pos (c_cur c);
    so_all : Forall (usable pos) (c_qs c)
  }.

  Lemma usable_mono a b e : a <= b -> usable a e -> usable b e.
  Proof. intros H [H1 H2]. split; [exact H1|]. destruct (q_ms e); try exact H2; lia. Qed.

  Lemma need_le l : (need l <= List.length l)%nat.
  Proof. induction l as [|[] l IH]; cbn in *; lia. Qed.

  Lemma gmt_any e : valid_state d (q_state e) -> exists m, getMatchedType d e = Ok m.
  Proof. destruct e as [q i m]. intros H. rewrite (gmt_ok d q i m Hd H). eauto. Qed.

  Lemma next_any e inp : valid_state d (q_state e) -> exists e', next_elt d e inp = Ok e' /\ forall pos, usable pos e'.
  Proof.
    destruct e as [q i m]. intros H. destruct (next_ok d q i m inp Hd H) as [-> Hv]. eexists. split; [reflexivity|].
    intros pos. split; [exact Hv|exact I].
  Qed.

  (** A result that is fine, or stopped at a full fixed-size buffer. *)
  Definition fine {A} (P : A -> Prop) (r : res A) : Prop :=
    match r with Ok a => P a | UB OOBWrite => True | UB _ => False end.

  Lemma fine_bind {A C} (P : A -> Prop) (Q : C -> Prop) r (f : A -> res C) :
    fine P r -> (forall a, P a -> fine Q (f a)) -> fine Q (bind r f).
  Proof. destruct r as [a|[]]; cbn; auto. Qed.

  Lemma add_fine tl s t : fine (fun _ => True) (addTuple tl s t).
  Proof. unfold addTuple, strcopy. destruct (_ <=? _); [exact I|]. destruct (_ <? _); exact I. Qed.

  Lemma emit_fine e pos tl : usable pos e -> pos <= zlen buf ->
    fine (fun _ => True) (emit_close d buf e pos tl).
  Proof.
    intros [Hv Hm] Hp. unfold emit_close. destruct (q_ms e) as [|z|]; cbn [ms_set bind]; [exact I| |destruct Hm].
    destruct (gmt_any e Hv) as (m & ->). cbn [bind]. destruct (_ =? _); [|exact I].
    unfold substring, ltrim. cbn [Z.to_nat skipn]. rewrite Hbuf. cbn [Z.of_nat Z.add].
    replace (pos <? z) with false by lia. unfold read_range.
    destruct (pos - z <=? 0); cbn [bind].
    - apply (fine_bind (fun _ => True)); [apply add_fine|]. intros; exact I.
    - replace (z <? 0) with false by lia. replace (zlen buf + 1 <? z + (pos - z)) with false by lia. cbn [orb bind].
      apply (fine_bind (fun _ => True)); [apply add_fine|]. intros; exact I.
  Qed.

  Lemma remember_push o l : map sym_of (remember o l) = push (map sym_of l) (sym_of o).
  Proof. unfold remember, push, MAX_STACK. rewrite map_length. destruct (Nat.ltb _ 100); reflexivity. Qed.
  Lemma remember_len o l : (List.length l <= 100)%nat -> (List.length (remember o l) <= 100)%nat.
  Proof. intros H. unfold remember. destruct (Nat.ltb_spec (List.length l) 100); cbn; lia. Qed.
  Lemma push_len {A} (x : A) l : (List.length l <= 100)%nat -> (List.length (push l x) <= 100)%nat.
  Proof. intros H. unfold push, MAX_STACK. destruct (Nat.ltb_spec (List.length l) 100); cbn; lia. Qed.
  Lemma push_need {A} (x : A) (qs : list A) o l : (List.length l <= 100)%nat -> (need l <= List.length qs)%nat ->
    (need (remember o l) <= List.length (push qs x))%nat.
  Proof.
    intros Hl Hn. pose proof (need_le (remember o l)). pose proof (remember_len o l Hl).
    unfold push, MAX_STACK. destruct (Nat.ltb_spec (List.length qs) 100); [|lia].
    unfold remember. destruct (Nat.ltb_spec (List.length l) 100); cbn [List.length]; cbn; [|lia].
    destruct o; cbn; lia.
  Qed.
  Lemma brace_need (l : list opened) : need (remember OBrace l) = need l.
  Proof. unfold remember. destruct (Nat.ltb _ _); reflexivity. Qed.
  Lemma push_all pos x qs : usable pos x -> Forall (usable pos) qs -> Forall (usable pos) (push qs x).
  Proof. intros H1 H2. unfold push. destruct (Nat.ltb _ _); [constructor; assumption|assumption]. Qed.

  Lemma step_fine pos l c ev :
    sound pos l c -> 0 <= pos -> pos < e_next ev <= zlen buf ->
    (match e_tok ev, l with TRB, OBrace :: _ => true | _, _ => false end) = false ->
    fine (sound (e_next ev) (after_token l (e_tok ev))) (core_step d buf c ev).
  Proof.
    intros Hs H0 Hp Hm. set (n := e_next ev) in *.
    assert (Hs' : sound n l c).
    { destruct Hs as [S1 S2 S3 S4 S5 S6]. constructor; try assumption.
      - eapply usable_mono; [|exact S5]. lia.
      - eapply Forall_impl; [|exact S6]. intros e. apply usable_mono. lia. }
    clear Hs. destruct Hs' as [S1 S2 S3 S4 S5 S6]. pose proof S5 as [Hv _].
    unfold core_step. fold n. destruct (e_tok ev) eqn:Et; cbn [after_token].
    - (* LCB *)
      unfold do_lcb. destruct (gmt_any (c_cur c) Hv) as (m & ->). cbn [bind]. rewrite S1.
      assert (G : forall cur tl, usable n cur -> sound n (remember OBrace l) (mkCore (push (map sym_of l) SLCB) (c_qs c) cur tl)).
      { intros cur tl Hc. constructor; cbn; try assumption.
        - rewrite remember_push. reflexivity.
        - apply remember_len, S2.
        - rewrite brace_need. exact S3. }
      destruct (_ =? _); [apply G; split; [exact Hv|cbn; lia]|].
      destruct (_ =? _); [apply (fine_bind (fun _ => True)); [apply add_fine|intros; apply G, S5]|].
      destruct (_ =? _); [apply (fine_bind (fun _ => True)); [apply add_fine|intros; apply G, S5]|]. apply G, S5.
    - (* RCB *)
      unfold do_rcb. apply (fine_bind (fun _ => True)); [apply emit_fine; [exact S5|lia]|]. intros [tl em] _. rewrite S1.
      assert (Hc : usable n (if em : bool then set_ms (c_cur c) MInv else c_cur c)).
      { destruct em; [|exact S5]. split; [exact Hv|exact I]. }
      destruct l as [|o [|[] l']]; cbn [map sym_of after_token].
      + constructor; cbn; auto; lia.
      + constructor; cbn; auto; lia.
      + destruct (c_qs c) as [|e qs] eqn:Eq; [cbn in S3; lia|]. cbn [qs_pop]. inversion S6; subst.
        cbn in *. constructor; cbn; auto; lia.
      + destruct o; (constructor; cbn; auto; try lia; cbn in *; lia).
      + destruct (gmt_any (incr (if em : bool then set_ms (c_cur c) MInv else c_cur c))) as (m & ->).
        { destruct em; exact Hv. }
        cbn [bind].
        assert (G : forall tl, sound n (OBracket :: l') (mkCore (SLB :: map sym_of l') (c_qs c) (incr (if em : bool then set_ms (c_cur c) MInv else c_cur c)) tl)).
        { intros tl0. cbn in *. constructor; cbn; auto;  try lia.
          all: destruct em; [split; [exact Hv|exact I]|]. all: destruct S5 as [U1 U2]; split; [exact U1|exact U2]. }
        destruct (_ =? _); [apply (fine_bind (fun _ => True)); [apply add_fine|intros; apply G]|apply G].
    - (* LB *)
      unfold do_lb. destruct (gmt_any (c_cur c) Hv) as (m & ->). cbn [bind].
      assert (G : forall cur tl, usable n cur -> fine (sound n (remember OBracket l))
        (n0 <- next_elt d cur None ;; Ok (mkCore (push (c_ss c) SLB) (push (c_qs c) cur) n0 tl))).
      { intros cur tl Hc. destruct (next_any cur None (proj1 Hc)) as (e' & -> & He'). cbn [bind fine]. rewrite S1.
        constructor; cbn.
        - rewrite remember_push. reflexivity.
        - apply remember_len, S2.
        - apply push_need; assumption.
        - apply push_len, S4.
        - apply He'.
        - apply push_all; assumption. }
      destruct (_ =? _); cbn [bind]; [apply G; split; [exact Hv|cbn; lia]|].
      destruct (_ =? _); cbn [bind]; [|apply G, S5].
      apply (fine_bind (fun x => fst x = c_cur c)).
      + apply (fine_bind (fun _ => True)); [apply add_fine|]. intros tl _. reflexivity.
      + intros [e tl] E. cbn in E. subst e. apply G, S5.
    - (* RB *)
      unfold do_rb. rewrite S1. destruct l as [|o l]; [constructor; auto|]. cbn [map].
      assert (Hne : exists e qs, c_qs c = e :: qs).
      { destruct (c_qs c) as [|e qs]; [|eauto]. destruct o; cbn in S3; try lia; discriminate. }
      destruct Hne as (e & qs & Eq). rewrite Eq in *. inversion S6 as [|? ? He Hqs]; subst. cbn [qs_top qs_pop].
      apply (fine_bind (fun _ => True)); [apply emit_fine; [exact He|lia]|]. intros [tl em] _.
      assert (No : needs o = 1%nat) by (destruct o; [reflexivity|discriminate|reflexivity]).
      cbn in S2, S3, S4. rewrite No in S3.
      destruct l as [|[] l']; cbn [map sym_of].
      + constructor; cbn; auto; lia.
      + cbn in S3. destruct qs as [|e2 qs2]; [cbn in S3; lia|]. cbn [qs_pop]. inversion Hqs; subst. cbn in *.
        constructor; cbn; auto; lia.
      + constructor; cbn; auto;  rewrite ?No, ?Eq; try lia; auto.
      + cbn in *. constructor; cbn; auto;  try lia; try (destruct He as [U1 U2]; split; [exact U1|exact U2]).
    - (* COM *) constructor; auto.
    - (* KY *)
      unfold do_ky. destruct (next_any (c_cur c) (Some s) Hv) as (e' & -> & He'). cbn [bind fine]. rewrite S1.
      constructor; cbn.
      + rewrite remember_push. reflexivity.
      + apply remember_len, S2.
      + apply push_need; assumption.
      + apply push_len, S4.
      + apply He'.
      + apply push_all; assumption.
    - (* PRI *)
      unfold do_pri. rewrite S1. destruct l as [|o l]; [constructor; auto|]. cbn [map].
      destruct (gmt_any (c_cur c) Hv) as (m & ->). cbn [bind].
      apply (fine_bind (fun _ => True)); [destruct (_ || _); [apply add_fine|exact I]|]. intros tl _.
      destruct o; cbn [sym_of].
      + cbn in S3. destruct (c_qs c) as [|e qs] eqn:Eq; [cbn in S3; lia|]. cbn [qs_pop]. inversion S6; subst. cbn in *.
        constructor; cbn; auto; lia.
      + constructor; cbn; auto.
      + constructor; cbn; auto.
    - (* END *) constructor; auto.
  Qed.

  Lemma run_fine : forall evs pos l c, sound pos l c -> 0 <= pos -> placed (zlen buf) pos evs ->
    bracket_closes_brace l (map e_tok evs) = false ->
    fine (fun _ => True) (foldM (core_step d buf) evs c).
  Proof.
    induction evs as [|ev evs IH]; intros pos l c Hs H0 Hp Hb; [exact I|]. cbn [foldM placed map bracket_closes_brace] in *.
    apply orb_false_iff in Hb. destruct Hp as [Hp1 Hp2].
    apply (fine_bind (sound (e_next ev) (after_token l (e_tok ev)))).
    - eapply step_fine; eauto. apply Hb.
    - intros c' Hc'. eapply IH; [exact Hc'|lia|exact Hp2|apply Hb].
  Qed.

  (** * Buffers that are large enough *)
  Definition unfilled {A} (P : A -> Prop) (r : res A) : Prop := match r with Ok a => P a | UB OOBWrite => False | UB _ => True end.
  Lemma unfilled_bind {A C} (P : A -> Prop) (Q : C -> Prop) r (f : A -> res C) :
    unfilled P r -> (forall a, P a -> unfilled Q (f a)) -> unfilled Q (bind r f).
  Proof. destruct r as [a|[]]; cbn; auto. Qed.
  Lemma read_un {A} (l : list A) z : unfilled (fun _ => True) (zread l z).
  Proof. unfold zread. destruct (znth l z); exact I. Qed.
  Lemma range_un e : unfilled (fun _ => True) (in_range d e).
  Proof. unfold in_range. eapply unfilled_bind; [apply read_un|]. intros [lo hi] _. exact I. Qed.
  Lemma gmt_un e : unfilled (fun _ => True) (getMatchedType d e).
  Proof.
    unfold getMatchedType. eapply unfilled_bind; [apply read_un|]. intros m _. destruct (_ =? _); [|exact I]. eapply unfilled_bind; [apply range_un|]. intros; exact I.
  Qed.
  Lemma find_un row s : forall n c, unfilled (fun _ => True) (find_input n d row c s).
  Proof.
    induction n as [|n IH]; intros c; [exact I|]. cbn [find_input]. eapply unfilled_bind; [apply read_un|]. intros e _. destruct (_ =? _); [apply IH|].
    eapply unfilled_bind; [apply read_un|]. intros nm _. destruct (beq _ _); [exact I|apply IH].
  Qed.
  Lemma next_un e inp : unfilled (fun _ => True) (next_elt d e inp).
  Proof.
    unfold next_elt. eapply unfilled_bind; [apply range_un|]. intros r _. apply (unfilled_bind (fun _ => True)); [|intros; exact I]. destruct r; [|exact I].
    unfold dfaNextStateByStr, dfaNextState. destruct inp; eapply unfilled_bind; try apply read_un; intros row _; [|apply read_un].
    eapply unfilled_bind; [apply find_un|]. intros; apply read_un.
  Qed.
  Lemma add_un tl s t : zlen tl < 5000000 -> zlen t <= 998 -> unfilled (fun tl' => zlen tl' <= zlen tl + 1) (addTuple tl s t).
  Proof.
    intros H1 H2. unfold addTuple, strcopy, MAX_TUPLE_LIST, MAX_TEXT. replace (5000000 <=? zlen tl) with false by lia. replace (1000 <? zlen t + 2) with false by lia.
    cbn [bind unfilled]. rewrite zlen_app, zlen_cons, zlen_nil. lia.
  Qed.
  Lemma emit_un e pos tl : usable pos e -> zlen buf <= 998 -> zlen tl < 5000000 -> unfilled (fun p => zlen (fst p) <= zlen tl + 1) (emit_close d buf e pos tl).
  Proof.
    intros [Hv Hm] Hz Ht. unfold emit_close. destruct (q_ms e) as [|z|]; cbn [ms_set bind]; [cbn; lia| |destruct Hm].
    eapply unfilled_bind; [apply gmt_un|]. intros m _. destruct (_ =? _); [|cbn; lia].
    destruct (substring buf 0 z pos) as [txt|u] eqn:Es; cbn [bind].
    - apply sub_occurs in Es. destruct Es as (x & y & E).
      eapply unfilled_bind; [apply add_un; [exact Ht|]|intros tl' H; exact H]. rewrite E, !zlen_app in Hz. pose proof (zlen_nonneg x). pose proof (zlen_nonneg y). lia.
    - unfold substring in Es. replace (pos <? z) with false in Es by lia. unfold read_range in Es. destruct (_ <=? _); [discriminate|]. destruct (_ || _); [|discriminate]. injection Es as <-. exact I.
  Qed.

  Lemma step_room pos l c ev : sound pos l c -> pos < e_next ev -> zlen buf <= 998 -> zlen (c_tl c) + 2 <= 5000000 ->
    match e_tok ev with TPRI s => zlen s <= 998 | _ => True end ->
    unfilled (fun c' => zlen (c_tl c') <= zlen (c_tl c) + 2) (core_step d buf c ev).
  Proof.
    intros Hs Hp Hz Ht Hx. destruct Hs as [S1 S2 S3 S4 S5 S6].
    assert (Hc : usable (e_next ev) (c_cur c)) by (eapply usable_mono; [|exact S5]; lia).
    assert (Ha : Forall (usable (e_next ev)) (c_qs c)) by (eapply Forall_impl; [|exact S6]; intros e; apply usable_mono; lia).
    unfold core_step. destruct (e_tok ev) eqn:Et; try (cbn [unfilled c_tl fst snd]; cbn [c_tl fst snd] in *; first [lia|vm_compute; discriminate]).
    - unfold do_lcb. eapply unfilled_bind; [apply gmt_un|]. intros m _. repeat (destruct (_ =? _); [|]); try (cbn [unfilled c_tl fst snd]; cbn [c_tl fst snd] in *; first [lia|vm_compute; discriminate]);
        (eapply unfilled_bind; [apply add_un; [lia|cbn [unfilled c_tl fst snd]; cbn [c_tl fst snd] in *; first [lia|vm_compute; discriminate]]|intros tl Hl; cbn [unfilled c_tl]; cbv beta in Hl; lia]).
    - unfold do_rcb. eapply unfilled_bind; [apply emit_un; [exact Hc|exact Hz|lia]|]. intros [tl em] Hl. cbn [fst] in Hl.
      destruct (c_ss c) as [|o [|[] ss]]; try (cbn [unfilled c_tl fst snd]; cbn [c_tl fst snd] in *; first [lia|vm_compute; discriminate]); try (destruct o; cbn [unfilled c_tl fst snd]; cbn [c_tl fst snd] in *; first [lia|vm_compute; discriminate]).
      + cbv zeta. eapply unfilled_bind; [apply gmt_un|]. intros m _. destruct (_ =? _); [|cbn [unfilled c_tl fst snd]; cbn [c_tl fst snd] in *; first [lia|vm_compute; discriminate]].
        eapply unfilled_bind; [apply add_un; [lia|cbn [unfilled c_tl fst snd]; cbn [c_tl fst snd] in *; first [lia|vm_compute; discriminate]]|]. intros tl' Hl'. cbv beta in Hl'. cbn [unfilled c_tl]. lia.
      + destruct (qs_pop (c_qs c)). cbn [unfilled c_tl fst snd]. lia.
    - unfold do_lb. cbv zeta. eapply unfilled_bind; [apply gmt_un|]. intros m _.
      apply (unfilled_bind (fun p => zlen (snd p) <= zlen (c_tl c) + 1)).
      + destruct (_ =? _); [cbn [unfilled c_tl fst snd]; cbn [c_tl fst snd] in *; first [lia|vm_compute; discriminate]|]. destruct (_ =? _); [|cbn [unfilled c_tl fst snd]; cbn [c_tl fst snd] in *; first [lia|vm_compute; discriminate]]. eapply unfilled_bind; [apply add_un; [lia|cbn [unfilled c_tl fst snd]; cbn [c_tl fst snd] in *; first [lia|vm_compute; discriminate]]|]. intros tl Hl. exact Hl.
      + intros [e tl] Hl. cbn [snd] in Hl. eapply unfilled_bind; [apply next_un|]. intros n _. cbn [unfilled c_tl fst snd]. lia.
    - unfold do_rb. destruct (c_ss c) as [|o ss]; [cbn [unfilled c_tl fst snd]; cbn [c_tl fst snd] in *; first [lia|vm_compute; discriminate]|].
      assert (He : usable (e_next ev) (qs_top (c_qs c)) \/ c_qs c = []) by (destruct (c_qs c); [right; reflexivity|left; inversion Ha; assumption]).
      apply (unfilled_bind (fun p => zlen (fst p) <= zlen (c_tl c) + 1)).
      + destruct He as [He| ->]; [apply emit_un; [exact He|exact Hz|lia]|]. unfold emit_close. cbn [qs_top q_ms ms_set bind unfilled fst]. lia.
      + intros [tl em] Hl. cbn [fst] in Hl. destruct ss as [|[] ss]; try (destruct (qs_pop (c_qs c)) as [e qs]; try destruct (qs_pop qs)); cbn [unfilled c_tl fst snd]; cbn [c_tl fst snd] in *; first [lia|vm_compute; discriminate].
    - unfold do_ky. eapply unfilled_bind; [apply next_un|]. intros n _. cbn [unfilled c_tl fst snd]. lia.
    - unfold do_pri. destruct (c_ss c) as [|o ss]; [cbn [unfilled c_tl fst snd]; cbn [c_tl fst snd] in *; first [lia|vm_compute; discriminate]|]. cbv zeta. eapply unfilled_bind; [apply gmt_un|]. intros m _.
      apply (unfilled_bind (fun tl => zlen tl <= zlen (c_tl c) + 1)).
      + destruct (_ || _); [apply add_un; [lia|exact Hx]|cbn [unfilled c_tl fst snd]; cbn [c_tl fst snd] in *; first [lia|vm_compute; discriminate]].
      + intros tl Hl. destruct o; try destruct (qs_pop (c_qs c)); cbn [unfilled c_tl]; lia.
  Qed.

  Lemma run_room : forall evs pos l c, sound pos l c -> 0 <= pos -> placed (zlen buf) pos evs -> zlen buf <= 998 -> pos <= zlen buf -> zlen (c_tl c) <= 2 * pos ->
    Forall (fun ev => match e_tok ev with TPRI s => zlen s <= 998 | _ => True end) evs ->
    bracket_closes_brace l (map e_tok evs) = false -> exists c', foldM (core_step d buf) evs c = Ok c' /\ zlen (c_tl c') <= 2 * zlen buf.
  Proof.
    induction evs as [|ev evs IH]; intros pos l c Hs H0 Hp Hz Hpz Ht Hx Hb; [eexists; split; [reflexivity|lia]|]. cbn [foldM placed map bracket_closes_brace] in *.
    apply orb_false_iff in Hb. destruct Hp as [Hp1 Hp2]. apply Forall_cons_iff in Hx as [Hx1 Hx2].
    assert (F := step_fine pos l c ev Hs H0 Hp1 (proj1 Hb)).
    assert (R := step_room pos l c ev Hs (proj1 Hp1) Hz ltac:(lia) Hx1).
    destruct (core_step d buf c ev) as [c'|[]]; cbn [fine unfilled] in F, R; try contradiction. cbn [bind].
    eapply IH; [exact F|lia|exact Hp2|exact Hz|lia|lia|assumption|apply Hb].
  Qed.
End Any.

Theorem malformed_safe strict q d x stream evs : zlen (query_names q) <= name_bound -> build strict q = Ok (d, x) ->
  lex_all stream = Ok evs -> lead_blanks (c_string stream) = O ->
  bracket_closes_brace [] (map e_tok evs) = false ->
  fine (fun _ => True) (executeAutomaton d stream init_core).
Proof.
  intros HU Hb Hl Hlead Hbr. pose proof (bt_dfa _ _ (build_any strict q d x HU Hb)) as Hd.
  unfold executeAutomaton. rewrite Hl. cbn [bind].
  apply (run_fine d Hd (c_string stream) Hlead evs 0 [] init_core); auto.
  - constructor; cbn; auto; try lia. split; [|exact I]. cbn. pose proof (ok_states d Hd). unfold valid_state. lia.
  - lia.
  - exact (tokens_placed _ _ initLexer evs Hl ltac:(cbn; lia)).
Qed.

(** Any text of at most 998 bytes. *)
Theorem malformed_small strict q d x stream : zlen (query_names q) <= name_bound -> build strict q = Ok (d, x) ->
  zlen (c_string stream) <= 998 -> lexable Between (c_string stream) = true -> lead_blanks (c_string stream) = O ->
  (forall evs, lex_all stream = Ok evs -> bracket_closes_brace [] (map e_tok evs) = false) ->
  exists c, executeAutomaton d stream init_core = Ok c /\ zlen (c_tl c) <= 2 * 998.
Proof.
  intros HU Hb Hz Hl Hlead Hbr. pose proof (bt_dfa _ _ (build_any strict q d x HU Hb)) as Hd.
  destruct (lex_safe_bytes stream Hl) as [evs He]. specialize (Hbr evs He).
  unfold executeAutomaton. rewrite He. cbn [bind].
  destruct (run_room d Hd (c_string stream) Hlead evs 0 [] init_core) as (c & Hc & Hlen); auto; try (cbn; lia).
  - constructor; cbn; auto; try lia. split; [|exact I]. cbn. pose proof (ok_states d Hd). unfold valid_state. lia.
  - exact (tokens_placed _ _ initLexer evs He ltac:(cbn; lia)).
  - apply zlen_nonneg.
  - pose proof (tokens_occur (c_string stream) (c_string_no_nul stream) _ _ _ He) as Ho. eapply Forall_impl; [|exact Ho]. intros ev H. unfold texts_in in H.
    destruct (e_tok ev); auto. cbn [tok_text] in H. inversion H as [|? ? (a & b & E) _]; subst. rewrite E, !zlen_app in Hz. pose proof (zlen_nonneg a). pose proof (zlen_nonneg b). lia.
  - exists c. split; [exact Hc|lia].
Qed.
