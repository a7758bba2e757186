(** Lexing and running a stream piece by piece. *)
From Verif Require Import Base Spec PosSpec Util Lexer LexProof LexDoc LexMain LexSpec LexClaim Flat CutSpec Cut Loader LoaderProof Dfa Constraint Stream TreeSem.
Open Scope Z_scope.

Definition shift (n : Z) (m : token * Z) : token * Z := (fst m, n + snd m).

Lemma marks_shift n : forall l o, marks (n + o) l = map (shift n) (marks o l).
Proof.
  induction l as [|[w x] l IH]; intros o; [reflexivity|]. cbn [marks map]. f_equal.
  - unfold shift. cbn [fst snd]. f_equal. destruct x; lia.
  - rewrite <- IH. f_equal. lia.
Qed.

(** The marks of consecutive pieces in the coordinates of the whole. *)
Fixpoint pmarks (n : Z) (ps : list bytes) (ls : list (list item)) : list (token * Z) :=
  match ps, ls with
  | p :: ps', l :: ls' => map (shift n) (marks 0 l) ++ pmarks (n + zlen p) ps' ls'
  | _, _ => []
  end.

Lemma pmarks_shift n : forall ps ls m, map (shift n) (pmarks m ps ls) = pmarks (n + m) ps ls.
Proof.
  induction ps as [|p ps IH]; intros [|l ls] m; try reflexivity. cbn [pmarks]. rewrite map_app, IH, map_map. f_equal.
  - apply map_ext. intros [t z]. unfold shift. cbn. f_equal. lia.
  - f_equal. lia.
Qed.

Lemma last_solid_app_some a b : last_solid b <> None -> last_solid (a ++ b) <> None.
Proof. intros H. rewrite last_solid_app. destruct (last_solid b); [discriminate|congruence]. Qed.

Lemma well_cut_after : forall ps b q, last_solid q <> None -> well_cut (b ++ q) ps = true -> well_cut q ps = true.
Proof.
  induction ps as [|p ps IH]; intros b q Hq H; [reflexivity|]. cbn [well_cut] in *. apply andb_true_iff in H as [H1 H2].
  rewrite cut_after in H1 by exact Hq. rewrite H1. cbn [andb]. rewrite <- app_assoc in H2. refine (IH b _ _ H2).
  apply last_solid_app_some, solid_last, (cut_solid _ _ H1).
Qed.

Lemma cut_at_app a p r : cut_at a p = true -> cut_at a (p ++ r) = true.
Proof. unfold cut_at. destruct p as [|c p]; [discriminate|]. exact (fun H => H). Qed.

Lemma flat_pieces : forall ps p l, flat (p ++ concat ps) l -> well_cut p ps = true ->
  exists ls, Forall2 flat (p :: ps) ls /\ marks 0 l = pmarks 0 (p :: ps) ls.
Proof.
  induction ps as [|p2 ps IH]; intros p l Hf Hw.
  - cbn [concat] in Hf. rewrite app_nil_r in Hf. exists [l]. split; [repeat constructor; exact Hf|].
    cbn [pmarks]. rewrite app_nil_r, <- marks_shift. reflexivity.
  - cbn [well_cut] in Hw. apply andb_true_iff in Hw as [H1 H2]. cbn [concat] in Hf.
    destruct (flat_cut _ _ _ _ Hf eq_refl (cut_at_app _ _ (concat ps) H1)) as (l1 & l2 & F1 & F2 & Em).
    destruct (IH p2 l2 F2) as (ls & Fs & Es).
    { refine (well_cut_after ps p p2 _ H2). apply solid_last, (cut_solid _ _ H1). }
    exists (l1 :: ls). split; [constructor; assumption|]. rewrite Em.
    change (pmarks 0 (p :: p2 :: ps) (l1 :: ls)) with (map (shift 0) (marks 0 l1) ++ pmarks (0 + zlen p) (p2 :: ps) ls).
    f_equal.
    + rewrite <- marks_shift. reflexivity.
    + replace (0 + zlen p) with (zlen p + 0) by lia. rewrite <- pmarks_shift, <- Es, <- marks_shift. f_equal. lia.
Qed.

Lemma pieces_lex : forall ps ls, Forall2 flat ps ls -> no_nul (concat ps) ->
  Forall2 (fun p l => exists evs, lex_all p = Ok evs /\ map mark evs = marks 0 l) ps ls.
Proof.
  intros ps ls H. induction H as [|p l ps ls Hf _ IH]; intros Hn; [constructor|]. cbn [concat] in Hn.
  constructor.
  - apply flat_lex; [exact Hf|]. intros Hin. apply Hn, in_or_app. auto.
  - apply IH. intros Hin. apply Hn, in_or_app. auto.
Qed.

Lemma pmarks_tokens : forall ps ls n, List.length ps = List.length ls -> map fst (pmarks n ps ls) = concat (map (fun l => map fst (marks 0 l)) ls).
Proof.
  induction ps as [|p ps IH]; intros [|l ls] n H; try discriminate; [reflexivity|]. cbn [pmarks map concat]. rewrite map_app, IH by (cbn in H; lia).
  f_equal. rewrite map_map. reflexivity.
Qed.

(** A document cut into pieces: every piece is lexed, and the tokens are those of the document. *)
Theorem pieces_tokens dc p ps : wf_doc dc = true -> lex_safe (d_val dc) = true -> tame (d_val dc) = true ->
  concat (p :: ps) = doc_text dc -> well_cut p ps = true ->
  exists evss, Forall2 (fun p evs => lex_all p = Ok evs) (p :: ps) evss /\ map e_tok (concat evss) = doc_tokens (d_val dc).
Proof.
  intros Hwf Hs Ht Hc Hw. pose proof (doc_flat dc Hwf Hs Ht) as Hf. rewrite <- Hc in Hf.
  destruct (flat_pieces ps p _ Hf Hw) as (ls & Fs & Em).
  assert (Hl : Forall2 (fun p l => exists evs, lex_all p = Ok evs /\ map mark evs = marks 0 l) (p :: ps) ls).
  { apply pieces_lex; [exact Fs|]. rewrite Hc. apply doc_no_nul, Hwf. }
  assert (Hlen : List.length (p :: ps) = List.length ls) by (clear -Fs; induction Fs; cbn; congruence).
  assert (G : forall qs ms, Forall2 (fun p l => exists evs, lex_all p = Ok evs /\ map mark evs = marks 0 l) qs ms ->
    exists evss, Forall2 (fun p evs => lex_all p = Ok evs) qs evss /\ map e_tok (concat evss) = concat (map (fun l => map fst (marks 0 l)) ms)).
  { clear. induction 1 as [|q m qs ms (evs & E1 & E2) _ (evss & I1 & I2)].
    - exists []. split; [constructor|reflexivity].
    - exists (evs :: evss). split; [constructor; assumption|]. cbn [concat map]. rewrite map_app, I2. f_equal. rewrite <- E2, map_map. reflexivity. }
  destruct (G _ _ Hl) as (evss & I1 & I2). exists evss. split; [exact I1|]. rewrite I2, <- (pmarks_tokens _ _ 0 Hlen), <- Em, marks_tokens.
  rewrite <- (proj1 tokens_same). apply (proj1 items_tokens).
Qed.
