(** Serial runs and the memory that they read before anything has been stored in it. *)
From Verif Require Import Base Util Spec Lexer Dfa Stream Num Builder Eval Filter Loader Run EndToEnd.
Open Scope Z_scope.

Section Noise.
  Variable N : numops.
  Variable p : processor.

  (** Contexts that agree on everything but the flag and what follows from it. *)
  Definition alike (a b : scontext) : Prop := sc_context a = sc_context b /\ sc_core a = sc_core b /\ sc_filter a = sc_filter b.
  Lemma partial_alike j1 j2 s a b o1 o2 a' b' : alike a b -> serialPartialRun N j1 p s a = Ok (o1, a') -> serialPartialRun N j2 p s b = Ok (o2, b') -> o1 = o2 /\ alike a' b'.
  Proof.
    intros (H1 & H2 & H3). unfold serialPartialRun. rewrite <- H1, <- H2, <- H3.
    destruct (sc_context a && sc_freed a); [discriminate|]. destruct (sc_context a && sc_freed b); [discriminate|].
    destruct (executeAutomaton (p_dfa p) s (if sc_context a then sc_core a else init_core)) as [c|]; [|discriminate]. cbn [bind].
    destruct (if sc_context a then Ok (sc_filter a) else initPredicateFilter (p_ctx p)) as [f|]; [|discriminate]. cbn [bind].
    destruct (generateFinalOutput N (p_ctx p) f (c_tl c)) as [f1|]; [|discriminate]. cbn [bind].
    intros E1 E2. injection E1 as <- <-. injection E2 as <- <-. split; [reflexivity|]. repeat split.
  Qed.
  Lemma loop_alike j1 j2 M X file : forall fuel start out a b r1 r2 a' b', alike a b ->
    serial_loop N j1 p M X file fuel start out a = Ok (r1, a') -> serial_loop N j2 p M X file fuel start out b = Ok (r2, b') -> r1 = r2.
  Proof.
    induction fuel as [|fuel IH]; intros start out a b r1 r2 a' b' Ha; cbn [serial_loop]; [discriminate|].
    destruct (loadBounded M X file start) as [[[s next]|]|]; cbn [bind]; [|congruence|discriminate].
    destruct (serialPartialRun N j1 p s a) as [[o1 a1]|] eqn:E1; [|discriminate]. destruct (serialPartialRun N j2 p s b) as [[o2 b1]|] eqn:E2; [|discriminate]. cbn [bind].
    destruct (partial_alike j1 j2 s a b o1 o2 a1 b1 Ha E1 E2) as [<- H1]. apply IH, H1.
  Qed.
  Lemma run_alike j1 j2 M X file o1 o2 : serial_run N j1 p M X file = Ok o1 -> serial_run N j2 p M X file = Ok o2 -> o1 = o2.
  Proof.
    unfold serial_run. destruct (serial_loop N j1 p M X file (S (List.length file)) 0 None init_context) as [[r1 a]|] eqn:E1; [|discriminate].
    destruct (serial_loop N j2 p M X file (S (List.length file)) 0 None init_context) as [[r2 b]|] eqn:E2; [|discriminate]. cbn [bind].
    assert (H : r1 = r2) by (eapply loop_alike; [|exact E1|exact E2]; repeat split).
    destruct (destroyStreamingContext j1 a); [|discriminate]. destruct (destroyStreamingContext j2 b); [|discriminate]. cbn [bind]. congruence.
  Qed.
  (** A single load. *)
  Lemma run_once j1 j2 M X file : 0 < X -> zlen file <= M -> j_major_null j1 = j_major_null j2 -> serial_run N j1 p M X file = serial_run N j2 p M X file.
  Proof.
    intros HX HM Hj. unfold serial_run. destruct file as [|c file].
    - cbn [List.length serial_loop]. destruct (loadBounded M X [] 0) as [[[s n]|]|] eqn:E; [|cbn [bind]; unfold destroyStreamingContext; rewrite Hj; reflexivity|reflexivity].
      exfalso. unfold loadBounded in E. replace (Z.min (zlen (@nil ascii) - 0) M <=? 0) with true in E by (cbn; lia). discriminate.
    - cbn [List.length serial_loop]. rewrite (load_whole M X (c :: file) HX) by (split; [rewrite zlen_cons; pose proof (zlen_nonneg file); lia|exact HM]). cbn [bind].
      rewrite load_end. unfold serialPartialRun. cbn [init_context sc_context andb sc_freed].
      destruct (executeAutomaton (p_dfa p) (c :: file) init_core) as [c1|]; [|reflexivity]. cbn [bind].
      destruct (initPredicateFilter (p_ctx p)) as [f|]; [|reflexivity]. cbn [bind]. destruct (generateFinalOutput N (p_ctx p) f (c_tl c1)) as [f1|]; [|reflexivity]. cbn [bind].
      unfold destroyStreamingContext. rewrite Hj. reflexivity.
  Qed.
End Noise.
