(** Cutting a flat sequence of lexemes by the cutting rule. *)
From Verif Require Import Base Util Lexer Spec LexProof LexDoc LexMain CutSpec Flat.
From Coq Require Import Lia.
Open Scope Z_scope.

Lemma last_solid_app a b : last_solid (a ++ b) = match last_solid b with Some x => Some x | None => last_solid a end.
Proof.
  induction a as [|c a IH]; [cbn; destruct (last_solid b); reflexivity|]. cbn [app last_solid]. rewrite IH.
  destruct (last_solid b); [reflexivity|]. reflexivity.
Qed.
Lemma last_solid_ws w : ws w = true -> last_solid w = None.
Proof.
  induction w as [|c w IH]; [reflexivity|]. cbn [ws forallb last_solid]. intros H. apply andb_true_iff in H as [Hc Hw].
  rewrite (IH Hw), Hc. reflexivity.
Qed.
Lemma last_solid_snoc a c : ws_char c = false -> last_solid (a ++ [c]) = Some c.
Proof. intros H. rewrite last_solid_app. cbn. rewrite H. reflexivity. Qed.
Lemma tame_last s a : tame_text s = true -> match last_solid (a ++ DQ :: s) with Some c => opens c | None => false end = false.
Proof.
  unfold tame_text. rewrite last_solid_app. cbn [last_solid]. destruct (last_solid s) as [x|]; [|reflexivity].
  destruct (opens x); [discriminate|reflexivity].
Qed.

Lemma body_quote : forall s e s1 s2, str_body e s = true -> s = s1 ++ DQ :: s2 ->
  (s1 = [] /\ e = true) \/ exists s1', s1 = s1' ++ [BSL].
Proof.
  induction s as [|c s IH]; intros e s1 s2 Hb E; [destruct s1; discriminate|].
  destruct s1 as [|c1 s1]; cbn [app] in E; injection E as E1 E2.
  - subst c. left. split; [reflexivity|]. cbn in Hb. destruct e; [reflexivity|discriminate].
  - subst c1. cbn [str_body] in Hb. apply andb_true_iff in Hb as [_ Hb]. right.
    assert (G : forall e', str_body e' s = true -> (e' = true -> c = BSL) -> exists s1', c :: s1 = s1' ++ [BSL]).
    { intros e' Hb' He. destruct (IH e' s1 s2 Hb' E2) as [[-> Ht]|(s1' & ->)].
      - exists []. rewrite (He Ht). reflexivity.
      - exists (c :: s1'). reflexivity. }
    destruct e; [apply (G false Hb); discriminate|].
    destruct (Ascii.eqb_spec c BSL) as [Ec|Ec]; [apply (G true Hb); auto|]. apply andb_true_iff in Hb as [_ Hb]. apply (G false Hb). discriminate.
Qed.

Lemma no_quote_ws w a r : ws w = true -> w <> a ++ DQ :: r.
Proof. intros H ->. unfold ws in H. rewrite forallb_app in H. apply andb_true_iff in H as [_ H]. discriminate. Qed.

(** Where a quote can be in a text made of two parts. *)
Lemma split_at (x y a r : bytes) : x ++ y = a ++ DQ :: r ->
  (exists r1, x = a ++ DQ :: r1 /\ r = r1 ++ y) \/ (exists a1, a = x ++ a1 /\ y = a1 ++ DQ :: r).
Proof.
  revert a. induction x as [|c x IH]; intros a E; cbn [app] in E.
  - right. exists a. auto.
  - destruct a as [|c1 a]; cbn [app] in E.
    + injection E as -> <-. left. exists x. auto.
    + injection E as -> E. destruct (IH a E) as [(r1 & -> & ->)|(a1 & -> & ->)].
      * left. exists r1. auto.
      * right. exists a1. auto.
Qed.

Definition quoted (x : lexeme) : bool := match x with XKey _ _ | XStr _ => true | _ => false end.
Definition bad_last (a : bytes) : Prop := match last_solid a with Some c => opens c | None => false end = false.

Lemma string_quote b a s t r : str_body false s = true -> tame_text s = true -> forallb (fun c => negb (Ascii.eqb c DQ)) t = true ->
  DQ :: s ++ DQ :: t = a ++ DQ :: r -> a = [] \/ bad_last (b ++ a).
Proof.
  intros Hs Ht Hq E. destruct a as [|c a]; [auto|]. right. cbn [app] in E. injection E as <- E.
  destruct (split_at s (DQ :: t) a r E) as [(r1 & Es & _)|(a1 & -> & E1)].
  - destruct (body_quote s false a r1 Hs Es) as [[_ ?]|(a' & ->)]; [discriminate|].
    unfold bad_last. change (DQ :: a' ++ [BSL]) with ([DQ] ++ a' ++ [BSL]). rewrite !app_assoc, last_solid_snoc; reflexivity.
  - destruct a1 as [|c1 a1].
    + rewrite app_nil_r. apply tame_last. exact Ht.
    + exfalso. cbn [app] in E1. injection E1 as _ ->. rewrite forallb_app in Hq. apply andb_true_iff in Hq as [_ Hq]. discriminate.
Qed.

Lemma bare_no_quote s a r : bare_word s = true -> s <> a ++ DQ :: r.
Proof.
  intros H ->. unfold bare_word in H. destruct (a ++ DQ :: r) eqn:E; [discriminate|]. rewrite <- E, forallb_app in H.
  apply andb_true_iff in H as [_ H]. discriminate.
Qed.

Lemma lexeme_quote b x a r : xok x = true -> xtame x = true -> xtext x = a ++ DQ :: r ->
  (a = [] /\ quoted x = true) \/ bad_last (b ++ a).
Proof.
  intros Hx Ht E. destruct x as [c|k wc|s|s]; cbn [xok xtame xtext] in *.
  - exfalso. destruct (sym_facts c Hx) as (_ & _ & _ & _ & _ & Hq & _). destruct a as [|c1 a]; injection E; [congruence|].
    intros E1 _. destruct a; discriminate.
  - apply andb_true_iff in Hx as [Hx Hwc]. apply andb_true_iff in Hx as [Hs _].
    assert (Hq : forallb (fun c => negb (Ascii.eqb c DQ)) (wc ++ [":"%char]) = true).
    { rewrite forallb_app. apply andb_true_iff. split; [|reflexivity]. rewrite forallb_forall in *. intros c Hc.
      specialize (Hwc c Hc). destruct (Ascii.eqb_spec c DQ) as [->|]; [discriminate|reflexivity]. }
    destruct (string_quote b a k (wc ++ [":"%char]) r Hs Ht Hq E); auto.
  - apply andb_true_iff in Hx as [Hs _]. destruct (string_quote b a s [] r Hs Ht eq_refl E); auto.
  - exfalso. apply andb_true_iff in Hx as [Hx _]. apply andb_true_iff in Hx as [Hx _]. exact (bare_no_quote s a r Hx E).
Qed.

Lemma chain_item k w x l post : chain k ((w, x) :: l) post = true ->
  ws w = true /\ xok x = true /\ chain (kind_after x) l post = true.
Proof. cbn [chain]. intros H. andb_split. auto. Qed.
Lemma chain_post : forall l k post, chain k l post = true -> ws post = true.
Proof.
  induction l as [|[w x] l IH]; intros k post H; [destruct k; try discriminate; exact H|]. apply chain_item in H. destruct H as (_ & _ & H). eauto.
Qed.

Lemma find_cut post : forall l k b A R, chain k l post = true -> forallb (fun i => xtame (snd i)) l = true ->
  itext l ++ post = A ++ DQ :: R -> ~ bad_last (b ++ A) ->
  exists l1 w x l2, l = l1 ++ (w, x) :: l2 /\ A = itext l1 ++ w /\ quoted x = true /\ DQ :: R = xtext x ++ itext l2 ++ post.
Proof.
  induction l as [|[w x] l IH]; intros k b A R Hc Ht E Hb.
  - exfalso. exact (no_quote_ws post A R (chain_post _ _ _ Hc) E).
  - apply chain_item in Hc. destruct Hc as (Hw & Hx & Hc). cbn [forallb snd] in Ht. apply andb_true_iff in Ht as [Htx Ht].
    cbn [itext] in E. rewrite <- !app_assoc in E. destruct (split_at w _ A R E) as [(r1 & Ew & _)|(a1 & -> & E1)].
    { exfalso. exact (no_quote_ws w A r1 Hw Ew). }
    destruct (split_at (xtext x) _ a1 R E1) as [(r1 & Ex & ->)|(a2 & -> & E2)].
    + destruct (lexeme_quote (b ++ w) x a1 r1 Hx Htx Ex) as [[-> Hq]|Hbad]; [|exfalso; apply Hb; rewrite app_assoc; exact Hbad].
      exists [], w, x, l. split; [reflexivity|]. split; [rewrite app_nil_r; reflexivity|]. split; [exact Hq|]. rewrite Ex. reflexivity.
    + destruct (IH (kind_after x) (b ++ w ++ xtext x) a2 R Hc Ht E2) as (l1 & w' & x' & l2 & -> & -> & Hq & E3).
      { rewrite <- !app_assoc. exact Hb. }
      exists ((w, x) :: l1), w', x', l2. split; [reflexivity|]. split; [cbn [itext]; lq|]. split; assumption.
Qed.

Lemma xok_last x : xok x = true -> exists t c, xtext x = t ++ [c] /\ ws_char c = false /\ (opens c = true -> exists c', x = XSym c').
Proof.
  intros Hx. destruct x as [c|k wc|s|s]; cbn [xok xtext] in *.
  - exists [], c. destruct (sym_facts c Hx) as (_ & _ & _ & _ & Hw & _). repeat split; eauto.
  - exists (DQ :: k ++ DQ :: wc), ":"%char. repeat split; [lq|discriminate].
  - exists (DQ :: s), DQ. repeat split. discriminate.
  - apply andb_true_iff in Hx as [Hx _]. apply andb_true_iff in Hx as [Hx _]. unfold bare_word in Hx.
    destruct s as [|c0 s0]; [discriminate|]. destruct (exists_last (l := c0 :: s0)) as (t & c & E); [discriminate|]. rewrite E in *.
    exists t, c. rewrite forallb_app in Hx. apply andb_true_iff in Hx as [_ Hx]. cbn in Hx. apply andb_true_iff in Hx as [Hx _].
    revert Hx. clear. intros Hx. split; [reflexivity|].
    assert (G : bare_char c = true -> ws_char c = false /\ opens c = false).
    { clear. revert c. intros [[][][][][][][][]]; vm_compute; intros; try discriminate; auto. }
    destruct (G Hx) as [-> ->]. split; [reflexivity|discriminate].
Qed.

Lemma chain_app_ok : forall l1 k l2 post, chain k (l1 ++ l2) post = true -> Forall (fun i => ws (fst i) = true /\ xok (snd i) = true) l1.
Proof.
  induction l1 as [|[w x] l1 IH]; intros k l2 post H; [constructor|]. cbn [app] in H. apply chain_item in H. destruct H as (H1 & H2 & H3).
  constructor; [auto|eauto].
Qed.

Lemma last_item l1 w k l2 post : chain k (l1 ++ l2) post = true -> ws w = true -> ~ bad_last (itext l1 ++ w) ->
  exists l0 w0 c, l1 = l0 ++ [(w0, XSym c)].
Proof.
  intros Hc Hw Hb. unfold bad_last in Hb. rewrite last_solid_app, (last_solid_ws w Hw) in Hb.
  destruct l1 as [|i l1]; [cbn in Hb; congruence|]. destruct (exists_last (l := i :: l1)) as (l0 & [w0 x0] & E); [discriminate|]. rewrite E in *.
  apply chain_app_ok in Hc. apply Forall_app in Hc as [_ Hc]. inversion Hc as [|? ? [_ Hx] _]; subst. cbn in Hx.
  destruct (xok_last x0 Hx) as (t & c & Et & Hws & Ho). rewrite itext_app in Hb. cbn [itext] in Hb. rewrite app_nil_r, Et, !app_assoc, last_solid_snoc in Hb by exact Hws.
  destruct (opens c); [|congruence]. destruct (Ho eq_refl) as (c' & ->). eauto.
Qed.

Lemma chain_left : forall l0 k w0 c l2 post w, chain k (l0 ++ (w0, XSym c) :: l2) post = true -> ws w = true ->
  chain k (l0 ++ [(w0, XSym c)]) w = true.
Proof.
  induction l0 as [|[w1 x1] l0 IH]; intros k w0 c l2 post w H Hw.
  - cbn [app chain] in *. apply andb_true_iff in H as [H _]. rewrite H. exact Hw.
  - cbn [app chain] in *. apply andb_true_iff in H as [H Hr]. rewrite (IH _ _ _ _ _ w Hr Hw). rewrite andb_true_r.
    replace (match x1 with XBare _ => bare_ok k w1 (l0 ++ [(w0, XSym c)]) | _ => true end)
      with (match x1 with XBare _ => bare_ok k w1 (l0 ++ (w0, XSym c) :: l2) | _ => true end); [exact H|].
    destruct x1; auto. destruct l0 as [|[? ?] l0]; reflexivity.
Qed.
Lemma chain_right : forall l0 k l2 post w0 c, chain k (l0 ++ (w0, XSym c) :: l2) post = true -> chain KSym l2 post = true.
Proof.
  induction l0 as [|[w1 x1] l0 IH]; intros k l2 post w0 c H; cbn [app] in H; apply chain_item in H; destruct H as (_ & _ & H); [exact H|eauto].
Qed.

Lemma zlen_itext_snoc l0 w0 x : zlen (itext (l0 ++ [(w0, x)])) = zlen (itext l0) + zlen w0 + zlen (xtext x).
Proof. rewrite itext_app. cbn [itext]. rewrite app_nil_r, !zlen_app. lia. Qed.

Lemma marks_app : forall l0 o w0 c l2, marks o (l0 ++ (w0, XSym c) :: l2) =
  marks o (l0 ++ [(w0, XSym c)]) ++ marks (o + zlen (itext (l0 ++ [(w0, XSym c)]))) l2.
Proof.
  induction l0 as [|[w1 x1] l0 IH]; intros o w0 c l2.
  - cbn [app marks itext]. f_equal. f_equal. rewrite !zlen_app, zlen_nil. lia.
  - cbn [app marks itext]. rewrite IH. f_equal.
    + f_equal. destruct x1; auto. destruct l0 as [|[? ?] l0]; reflexivity.
    + f_equal. rewrite !zlen_app. f_equal. lia.
Qed.
Lemma marks_ws o w x l : marks o ((w, x) :: l) = marks (o + zlen w) (([], x) :: l).
Proof. cbn [marks]. rewrite zlen_nil. rewrite (Z.add_0_r (o + zlen w)). reflexivity. Qed.

(** A stream that is a flat sequence of lexemes with tame strings. *)
Definition flat (s : bytes) (l : list item) : Prop :=
  exists post, s = itext l ++ post /\ chain KSym l post = true /\ forallb (fun i => xtame (snd i)) l = true.

Lemma flat_cut s l A B : flat s l -> s = A ++ B -> cut_at A B = true ->
  exists l1 l2, flat A l1 /\ flat B l2 /\ marks 0 l = marks 0 l1 ++ marks (zlen A) l2.
Proof.
  intros (post & Es & Hc & Ht) E Hcut. unfold cut_at in Hcut. apply andb_true_iff in Hcut as [HB HA].
  destruct B as [|q R]; [discriminate|]. apply Ascii.eqb_eq in HB. subst q. rewrite Es in E.
  destruct (find_cut post l KSym [] A R Hc Ht E) as (l1 & w & x & l2 & -> & -> & Hq & ER).
  { cbn. unfold bad_last. rewrite HA. discriminate. }
  assert (Hw : ws w = true). { pose proof (chain_app_ok (l1 ++ [(w, x)]) KSym l2 post) as H. rewrite <- app_assoc in H. specialize (H Hc).
    apply Forall_app in H as [_ H]. inversion H as [|? ? [Hw _] _]; subst. exact Hw. }
  destruct (last_item l1 w KSym _ post Hc Hw) as (l0 & w0 & c & ->). { unfold bad_last. rewrite HA. discriminate. }
  rewrite <- app_assoc in Hc. cbn [app] in Hc.
  exists (l0 ++ [(w0, XSym c)]), (([], x) :: l2). rewrite forallb_app in Ht. apply andb_true_iff in Ht as [Ht1 Ht2].
  split; [|split].
  - exists w. split; [reflexivity|]. split; [|exact Ht1]. exact (chain_left l0 KSym w0 c _ post w Hc Hw).
  - exists post. split; [rewrite ER; cbn [itext]; lq|]. split; [|exact Ht2]. apply chain_right in Hc. cbn [chain] in *. apply andb_true_iff in Hc as [Hc Hr].
    apply andb_true_iff. split; [|exact Hr].
    andb_split. repeat match goal with H : ?b = true |- context [?b] => rewrite H end. destruct x; try discriminate; reflexivity.
  - rewrite <- app_assoc. cbn [app]. rewrite marks_app. f_equal. rewrite marks_ws. f_equal. rewrite zlen_app. lia.
Qed.

Lemma flat_lex s l : flat s l -> no_nul s -> exists evs, lex_all s = Ok evs /\ map mark evs = marks 0 l.
Proof. intros (post & -> & Hc & _) Hn. exact (toks_lex l post Hc Hn). Qed.

Lemma marks_tokens : forall l o, map fst (marks o l) = map (fun i => xtoken (snd i)) l.
Proof. induction l as [|[w x] l IH]; intros o; [reflexivity|]. cbn [marks map fst snd]. rewrite IH. reflexivity. Qed.

Lemma doc_flat dc : wf_doc dc = true -> lex_safe (d_val dc) = true -> tame (d_val dc) = true -> flat (doc_text dc) (items_doc dc).
Proof.
  intros Hwf Hs Ht. destruct (doc_items dc Hwf Hs) as [E Hc]. exists (d_post dc). split; [exact E|]. split; [exact Hc|]. apply (proj1 items_tame). exact Ht.
Qed.
