(** The parser reads every query as it is written. *)
From Verif Require Import Base Util Spec ParseSpec Parser.
Open Scope Z_scope.

(** * Scanner *)
Lemma digit_same c : is_digit_c c = digit c.
Proof. reflexivity. Qed.
Lemma start_same c : nc_start c = name_start c.
Proof. unfold nc_start, name_start, in_range, between. destruct (Ascii.eqb c "_"%char), (Nat.leb 97 _ && Nat.leb _ 122), (Nat.leb 65 _ && Nat.leb _ 90); reflexivity. Qed.
Lemma char_same c : nc_char c = name_char c.
Proof. unfold nc_char, name_char. rewrite start_same. reflexivity. Qed.

(** All bytes, one by one. *)
Lemma all_ascii (P : ascii -> bool) : forallb (fun n => P (ascii_of_nat n)) (seq 0 256) = true -> forall c, P c = true.
Proof.
  intros H c. rewrite forallb_forall in H. rewrite <- (ascii_nat_embedding c). apply H. apply in_seq. pose proof (nat_ascii_bounded c). lia.
Qed.

Definition syms : bytes := B "<>!.*-+/%?[]()$@,:".
Definition lexes (w : bytes) (t : ptok) : Prop :=
  match t with
  | PName s => w = s /\ is_name s = true
  | PNumber l => w = l /\ is_literal l
  | PString s => exists q, (q = DQ \/ q = SQ) /\ w = q :: s ++ [q] /\ quotable q false s = true
  | PSym c => w = [c] /\ In c syms
  | PNeq => w = B "!=" | PLeq => w = B "<=" | PGeq => w = B ">=" | POr => w = B "||" | PAnd => w = B "&&"
  | PParent => w = B ".." | PEq => w = B "==" | PRe => w = B "=~"
  end.
(** May the character follow the token without a blank? *)
Definition after (t : ptok) (c : ascii) : bool :=
  match t with
  | PName _ => negb (nc_char c)
  | PNumber _ => negb (is_digit_c c || Ascii.eqb c "."%char)
  | PSym s => negb ((existsb (Ascii.eqb s) (B "<>!") && Ascii.eqb c "="%char) || (Ascii.eqb s "."%char && Ascii.eqb c "."%char))
  | _ => true
  end.
Definition ok_next (t : ptok) (r : bytes) : Prop := match r with [] => True | c :: _ => after t c = true end.

Lemma span_stop f a r : forallb f a = true -> match r with [] => True | c :: _ => f c = false end -> span f (a ++ r) = (a, r).
Proof.
  induction a as [|c a IH]; intros Ha Hr.
  - cbn. destruct r as [|c r]; [reflexivity|]. cbn. rewrite Hr. reflexivity.
  - cbn in *. apply andb_true_iff in Ha as [H1 H2]. rewrite H1, IH by assumption. reflexivity.
Qed.

Lemma body_ok q s r esc : (q = DQ \/ q = SQ) -> quotable q esc s = true -> scan_body q esc (s ++ q :: r) = Some (s, r).
Proof.
  intros Hq. revert esc. induction s as [|c s IH]; intros esc H.
  - cbn in H. destruct esc; [discriminate|]. cbn. rewrite Ascii.eqb_refl. reflexivity.
  - cbn in H. apply andb_true_iff in H as [_ H]. cbn. destruct esc.
    + apply andb_true_iff in H as [H1 H2]. apply negb_true_iff in H1. rewrite H1, IH by exact H2. reflexivity.
    + destruct (Ascii.eqb c BSL) eqn:E.
      * apply Ascii.eqb_eq in E. subst c. replace (Ascii.eqb BSL q) with false by (destruct Hq; subst q; reflexivity).
        rewrite IH by exact H. reflexivity.
      * apply andb_true_iff in H as [H1 H2]. apply negb_true_iff in H1. rewrite H1, IH by exact H2. reflexivity.
Qed.

Lemma digits_forall s : digits s = true -> s <> [] /\ forallb digit s = true.
Proof. destruct s; [discriminate|]. intros H. split; [discriminate|exact H]. Qed.

Lemma number_ok l r : is_literal l -> ok_next (PNumber l) r -> scan_number (l ++ r) = (l, r).
Proof.
  intros [Hl|(a & b & -> & Ha & Hb)] Hr.
  - apply digits_forall in Hl as [Hn Hl]. unfold scan_number.
    rewrite span_stop; [|exact Hl|].
    + destruct r as [|c r]; [reflexivity|]. cbn in Hr. apply negb_true_iff, orb_false_iff in Hr as [_ Hr].
      destruct (Ascii.ascii_dec c "."%char) as [->|Hc]; [discriminate|].
      destruct c as [[] [] [] [] [] [] [] []]; try reflexivity. congruence.
    + destruct r as [|c r]; [exact I|]. cbn in Hr. apply negb_true_iff, orb_false_iff in Hr as [Hr _]. exact Hr.
  - apply digits_forall in Ha as [_ Ha]. apply digits_forall in Hb as [Hn Hb]. unfold scan_number.
    rewrite <- app_assoc. cbn [app]. rewrite span_stop; [|exact Ha|reflexivity].
    rewrite span_stop; [|exact Hb|].
    + destruct b; [congruence|]. reflexivity.
    + destruct r as [|c r]; [exact I|]. cbn in Hr. apply negb_true_iff, orb_false_iff in Hr as [Hr _]. exact Hr.
Qed.

Lemma start_not_digit c : name_start c = true -> is_digit_c c = false.
Proof.
  intros H. assert (Hb : implb (name_start c) (negb (is_digit_c c)) = true).
  { revert c H. intros c _. apply (all_ascii (fun c => implb (name_start c) (negb (is_digit_c c)))). vm_compute. reflexivity. }
  rewrite H in Hb. apply negb_true_iff. exact Hb.
Qed.

Lemma scan_word c w t r : lexes (c :: w) t -> ok_next t r -> scan_one c (w ++ r) = (Some t, r).
Proof.
  intros Hl Hr. destruct t; cbn in Hl.
  - (* PSym *) destruct Hl as [E Hin]. injection E as -> ->. cbn [app]. unfold syms in Hin. cbn in Hin.
    assert (R1 : forall t0 (o : option ptok * bytes), existsb (Ascii.eqb c0) (B "<>!") = true ->
      match r with e :: s' => if Ascii.eqb e "="%char then (Some t0, s') else o | [] => o end = o).
    { intros t0 o Hd. destruct r as [|e r]; [reflexivity|]. cbn [ok_next after] in Hr. rewrite Hd in Hr.
      destruct (Ascii.eqb e "="%char); [discriminate|reflexivity]. }
    assert (R2 : forall t0 (o : option ptok * bytes), c0 = "."%char ->
      match r with e :: s' => if Ascii.eqb e "."%char then (Some t0, s') else o | [] => o end = o).
    { intros t0 o ->. destruct r as [|e r]; [reflexivity|]. cbn [ok_next after] in Hr.
      destruct (Ascii.eqb e "."%char); [discriminate|reflexivity]. }
    clear Hr.
    repeat (destruct Hin as [<-|Hin]; [first [reflexivity|exact (R1 _ _ eq_refl)|exact (R2 _ _ eq_refl)]|]). contradiction.
  - injection Hl as -> ->. reflexivity.
  - injection Hl as -> ->. reflexivity.
  - injection Hl as -> ->. reflexivity.
  - injection Hl as -> ->. reflexivity.
  - injection Hl as -> ->. reflexivity.
  - injection Hl as -> ->. reflexivity.
  - injection Hl as -> ->. reflexivity.
  - injection Hl as -> ->. reflexivity.
  - destruct Hl as (q & Hq & E & Hs). injection E as -> ->. rewrite <- app_assoc. cbn [app].
    pose proof (body_ok q s r false Hq Hs) as Hb. destruct Hq; subst q; unfold scan_one; cbv zeta; rewrite Hb; reflexivity.
  - destruct Hl as [<- Hn]. cbn in Hn. apply andb_true_iff in Hn as [H1 H2].
    unfold scan_one. rewrite (start_not_digit _ H1), start_same, H1.
    change (c :: w ++ r) with ((c :: w) ++ r). rewrite span_stop; [reflexivity| |].
    + cbn. rewrite char_same. unfold name_char at 1. rewrite H1. cbn [orb andb].
      rewrite forallb_forall in *. intros x Hx. rewrite char_same. auto.
    + destruct r as [|e r]; [exact I|]. cbn in Hr. apply negb_true_iff in Hr. exact Hr.
  - destruct Hl as [<- Hn]. assert (Hd : is_digit_c c = true).
    { destruct Hn as [Hn|(a & b & E & Ha & _)].
      - cbn in Hn. apply andb_true_iff in Hn. apply Hn.
      - destruct a as [|a0 a]; [discriminate|]. injection E as -> _. cbn in Ha. apply andb_true_iff in Ha. apply Ha. }
    unfold scan_one. rewrite Hd. change (c :: w ++ r) with ((c :: w) ++ r). rewrite number_ok; [reflexivity|exact Hn|exact Hr].
Qed.

(** A sequence of words with the tokens they are, where the next word or one of
    the characters of [P] may follow each without a blank. *)
Fixpoint joined (ws : list bytes) (ts : list ptok) (P : ascii -> bool) : Prop :=
  match ws, ts with
  | [], [] => True
  | w :: ws', t :: ts' =>
      lexes w t /\ match ws' with
                   | [] => forall c, P c = true -> after t c = true
                   | w2 :: _ => match w2 with c :: _ => after t c = true | [] => False end
                   end /\ joined ws' ts' P
  | _, _ => False
  end.

Lemma joined_app a ta P b tb Q : joined a ta P -> joined b tb Q -> match b with (c :: _) :: _ => P c = true | _ => False end ->
  joined (a ++ b) (ta ++ tb) Q.
Proof.
  revert ta. induction a as [|w a IH]; intros [|t ta] Ha Hb Hc; try contradiction; [exact Hb|].
  destruct Ha as (H1 & H2 & H3). specialize (IH ta H3 Hb Hc). cbn [app joined]. split; [exact H1|]. split; [|exact IH].
  destruct a as [|w2 a]; [|exact H2]. cbn [app]. destruct b as [|[|c b0] b]; try contradiction. apply H2. exact Hc.
Qed.
Lemma joined_weak a ta (P Q : ascii -> bool) : joined a ta P -> (forall c, Q c = true -> P c = true) -> joined a ta Q.
Proof.
  revert ta. induction a as [|w a IH]; intros [|t ta] Ha HPQ; try contradiction; [exact I|].
  destruct Ha as (H1 & H2 & H3). split; [exact H1|]. split; [|apply IH; assumption]. destruct a; [|exact H2]. auto.
Qed.
Lemma joined_one w t (P : ascii -> bool) : lexes w t -> (forall c, P c = true -> after t c = true) -> joined [w] [t] P.
Proof. cbn. auto. Qed.
Lemma joined_cons w t c w2 ws ts P : lexes w t -> after t c = true -> joined ((c :: w2) :: ws) ts P -> joined (w :: (c :: w2) :: ws) (t :: ts) P.
Proof. intros H1 H2 H3. split; [exact H1|]. split; [exact H2|exact H3]. Qed.

Lemma blank_after t c : query_blank c = true -> after t c = true.
Proof.
  intros H. unfold query_blank in H. rewrite !orb_true_iff in H.
  destruct H as [[[H|H]|H]|H]; apply Ascii.eqb_eq in H; subst c; destruct t; cbn [after]; try reflexivity;
    rewrite ?andb_false_r; reflexivity.
Qed.
Lemma blank_skip c s : query_blank c = true -> scan_one c s = (None, s).
Proof.
  intros H. unfold query_blank in H. rewrite !orb_true_iff in H. destruct H as [[[H|H]|H]|H]; apply Ascii.eqb_eq in H; subst c; reflexivity.
Qed.
Lemma scan_blanks b s n : forallb query_blank b = true -> (List.length b <= n)%nat -> scan n (b ++ s) = scan (n - List.length b) s.
Proof.
  revert n. induction b as [|c b IH]; intros n Hb Hn; [cbn; rewrite Nat.sub_0_r; reflexivity|].
  cbn in Hb. apply andb_true_iff in Hb as [H1 H2]. cbn in Hn. destruct n as [|n]; [lia|]. cbn [app scan]. rewrite (blank_skip _ _ H1).
  rewrite IH by (auto; lia). reflexivity.
Qed.

Lemma lexes_nonempty w t : lexes w t -> exists c w', w = c :: w'.
Proof.
  destruct t; cbn; intros H; try (subst w; eexists; eexists; reflexivity); try (destruct H as [-> H]).
  - eauto.
  - destruct H as (q & _ & -> & _). eauto.
  - destruct s; [discriminate|eauto].
  - destruct H as [H|(a & b & -> & H & _)]; [destruct lit; [discriminate|eauto]|]. destruct a; [discriminate|]. cbn. eauto.
Qed.

Lemma scan_written ws ts P s n : written ws s -> joined ws ts P -> (List.length s <= n)%nat -> scan n s = ts.
Proof.
  intros Hw. revert ts n. induction Hw as [b Hb|b w ws s Hb Hw IH]; intros [|t ts] n Hj Hn; try contradiction.
  - rewrite <- (app_nil_r b). rewrite scan_blanks by auto. destruct (n - _)%nat; reflexivity.
  - destruct Hj as (H1 & H2 & H3). rewrite !app_length in Hn. rewrite scan_blanks by (auto; lia).
    destruct (lexes_nonempty _ _ H1) as (c & w' & ->). cbn [List.length] in Hn.
    destruct (n - List.length b)%nat as [|m] eqn:Em; [lia|]. cbn [app scan]. rewrite (scan_word c w' t s H1).
    + rewrite (IH ts); [reflexivity|exact H3|lia].
    + destruct Hw as [b2 Hb2|b2 w2 ws2 s2 Hb2 Hw2].
      * destruct b2 as [|x b2]; [exact I|]. cbn in Hb2. apply andb_true_iff in Hb2. apply blank_after, Hb2.
      * destruct b2 as [|x b2].
        -- cbn [app]. destruct w2 as [|x w2]; [contradiction|]. exact H2.
        -- cbn in Hb2. apply andb_true_iff in Hb2. apply blank_after, Hb2.
Qed.

Definition no_nul (s : bytes) : bool := forallb (fun c => negb (Ascii.eqb c NUL)) s.
Lemma c_string_all s : no_nul s = true -> c_string s = s.
Proof.
  induction s as [|c s IH]; [reflexivity|]. cbn. intros H. apply andb_true_iff in H as [H1 H2]. apply negb_true_iff in H1.
  rewrite H1, IH by exact H2. reflexivity.
Qed.
Lemma no_nul_app a b : no_nul (a ++ b) = no_nul a && no_nul b.
Proof. apply forallb_app. Qed.
Lemma class_no_nul (f : ascii -> bool) s : f NUL = false -> forallb f s = true -> no_nul s = true.
Proof.
  intros Hf H. unfold no_nul. rewrite forallb_forall in *. intros c Hc. apply negb_true_iff, Ascii.eqb_neq. intros ->. rewrite (H _ Hc) in Hf. discriminate.
Qed.
Lemma quotable_no_nul q e s : quotable q e s = true -> no_nul s = true.
Proof.
  revert e. induction s as [|c s IH]; intros e H; [reflexivity|]. cbn in H. apply andb_true_iff in H as [H1 H]. cbn. rewrite H1. cbn.
  destruct e; [apply andb_true_iff in H; eapply IH, H|]. destruct (Ascii.eqb c BSL); [eapply IH, H|]. apply andb_true_iff in H. eapply IH, H.
Qed.
Lemma lexes_no_nul w t : lexes w t -> no_nul w = true.
Proof.
  destruct t; cbn [lexes]; intros H; try (subst w; reflexivity).
  - destruct H as [-> H]. unfold syms in H. cbn in H. repeat (destruct H as [<-|H]; [reflexivity|]). contradiction.
  - destruct H as (q & Hq & -> & H). change (q :: s ++ [q]) with ([q] ++ s ++ [q]). rewrite !no_nul_app, (quotable_no_nul _ _ _ H).
    destruct Hq; subst q; reflexivity.
  - destruct H as [-> H]. destruct s as [|c s]; [discriminate|]. cbn [is_name] in H. apply andb_true_iff in H as [H1 H2].
    apply (class_no_nul name_char); [reflexivity|]. cbn [forallb]. unfold name_char at 1. rewrite H1. exact H2.
  - destruct H as [-> [H|(a & b & -> & Ha & Hb)]].
    + apply digits_forall in H as [_ H]. apply (class_no_nul digit); [reflexivity|exact H].
    + apply digits_forall in Ha as [_ Ha]. apply digits_forall in Hb as [_ Hb]. rewrite no_nul_app. cbn [no_nul forallb].
      apply (class_no_nul digit) in Ha; [|reflexivity]. apply (class_no_nul digit) in Hb; [|reflexivity]. rewrite Ha. exact Hb.
Qed.
Lemma written_no_nul ws ts P s : written ws s -> joined ws ts P -> no_nul s = true.
Proof.
  intros Hw. revert ts. induction Hw as [b Hb|b w ws s Hb Hw IH]; intros [|t ts] Hj; try contradiction.
  - apply (class_no_nul query_blank); [reflexivity|exact Hb].
  - destruct Hj as (H1 & _ & H3). rewrite !no_nul_app, (lexes_no_nul _ _ H1), (IH _ H3).
    rewrite (class_no_nul query_blank b eq_refl Hb). reflexivity.
Qed.

Theorem scan_ok ws ts P s : written ws s -> joined ws ts P -> scan_string s = ts.
Proof.
  intros Hw Hj. unfold scan_string. rewrite c_string_all by (eapply written_no_nul; eauto). eapply scan_written; eauto.
Qed.

(** * The tokens of expressions and steps *)
Definition op_tok (op : binop) : ptok :=
  match op with
  | BOr => POr | BAnd => PAnd | BEq => PEq | BNeq => PNeq | BLt => PSym "<" | BGt => PSym ">" | BLe => PLeq | BGe => PGeq
  | BAdd => PSym "+" | BSub => PSym "-" | BMul => PSym "*" | BDiv => PSym "/" | BMod => PSym "%"
  end%char.
Definition minus_tok (neg : bool) : list ptok := if neg then [PSym "-"%char] else [].
Fixpoint etoks (c : cexpr) : list ptok :=
  match c with
  | CField p => PSym "@"%char :: flat_map (fun k => [PSym "."%char; PName k]) p
  | CNum n l => minus_tok n ++ [PNumber l]
  | CStr q s => [PString s]
  | CNot e => PSym "!"%char :: etoks e
  | CBin op e1 e2 => etoks e1 ++ op_tok op :: etoks e2
  | CParen e => PSym "("%char :: etoks e ++ [PSym ")"%char]
  end.

(** What may follow an expression, start one, or follow a step. *)
Definition closer (c : ascii) : bool := existsb (Ascii.eqb c) (B "|&=!<>+-*/%)]:").
Definition opener (c : ascii) : bool := digit c || existsb (Ascii.eqb c) (B "@""'!(-").
Definition next_step (c : ascii) : bool := existsb (Ascii.eqb c) (B ".[").
Definition any_char (c : ascii) : bool := true.

Lemma in_syms c : existsb (Ascii.eqb c) syms = true -> In c syms.
Proof. intros H. apply existsb_exists in H as (x & Hx & E). apply Ascii.eqb_eq in E. subst x. exact Hx. Qed.
Lemma by_class (P Q : ascii -> bool) : forallb (fun n => implb (P (ascii_of_nat n)) (Q (ascii_of_nat n))) (seq 0 256) = true ->
  forall c, P c = true -> Q c = true.
Proof. intros H c Hc. pose proof (all_ascii (fun c => implb (P c) (Q c)) H c) as Hi. cbv beta in Hi. rewrite Hc in Hi. exact Hi. Qed.

Lemma name_word k (P : ascii -> bool) : is_name k = true -> (forall c, P c = true -> nc_char c = false) -> joined [k] [PName k] P.
Proof. intros Hk HP. apply joined_one; [split; auto|]. intros c Hc. cbn [after]. rewrite (HP c Hc). reflexivity. Qed.
Lemma name_head k : is_name k = true -> exists c k', k = c :: k' /\ name_start c = true.
Proof. destruct k as [|c k]; [discriminate|]. cbn. intros H. apply andb_true_iff in H as [H _]. eauto. Qed.
Lemma class_neg (P Q : ascii -> bool) : forallb (fun n => implb (P (ascii_of_nat n)) (negb (Q (ascii_of_nat n)))) (seq 0 256) = true ->
  forall c, P c = true -> Q c = false.
Proof. intros H c Hc. apply negb_true_iff. revert c Hc. apply (by_class P (fun c => negb (Q c))). exact H. Qed.

Lemma dot_name k P : is_name k = true -> (forall c, P c = true -> nc_char c = false) -> joined [B "."; k] [PSym "."%char; PName k] P.
Proof.
  intros Hk HP. destruct (name_head k Hk) as (c & k' & E & Hc). pose proof (name_word k P Hk HP) as Hj. rewrite E in Hj |- *.
  apply joined_cons; [split; [reflexivity|apply in_syms; reflexivity]| |exact Hj].
  revert c Hc E Hj. intros c Hc _ _. revert c Hc. apply by_class. vm_compute. reflexivity.
Qed.

Lemma path_words p : Forall (fun k => is_name k = true) p ->
  joined (B "@" :: flat_map (fun k => [B "."; k]) p) (PSym "@"%char :: flat_map (fun k => [PSym "."%char; PName k]) p) closer.
Proof.
  intros Hp. assert (Hat : forall P, joined [B "@"] [PSym "@"%char] P).
  { intros P. apply joined_one; [split; [reflexivity|apply in_syms; reflexivity]|]. intros c _. reflexivity. }
  destruct p as [|k p]; [apply Hat|].
  change (joined ([B "@"] ++ flat_map (fun k => [B "."; k]) (k :: p)) ([PSym "@"%char] ++ flat_map (fun k => [PSym "."%char; PName k]) (k :: p)) closer).
  eapply joined_app; [apply (Hat any_char)| |reflexivity].
  revert k Hp. induction p as [|k2 p IH]; intros k Hp; inversion_clear Hp as [|? ? H1 H2]; cbn [flat_map].
  - rewrite !app_nil_r. apply dot_name; [exact H1|]. apply class_neg. vm_compute. reflexivity.
  - eapply (joined_app _ _ (Ascii.eqb "."%char)); [| |reflexivity].
    + apply dot_name; [exact H1|]. apply class_neg. vm_compute. reflexivity.
    + apply (IH k2 H2).
Qed.

Lemma literal_head l : is_literal l -> exists c l', l = c :: l' /\ digit c = true.
Proof.
  intros [H|(a & b & -> & H & _)].
  - destruct l as [|c l]; [discriminate|]. cbn in H. apply andb_true_iff in H as [H _]. eauto.
  - destruct a as [|c a]; [discriminate|]. cbn in H. apply andb_true_iff in H as [H _]. eexists. eexists. split; [reflexivity|exact H].
Qed.
Lemma number_words n l : is_literal l -> joined (minus n ++ [l]) (minus_tok n ++ [PNumber l]) closer.
Proof.
  intros Hl. assert (H1 : joined [l] [PNumber l] closer).
  { apply joined_one; [split; auto|]. apply by_class. vm_compute. reflexivity. }
  destruct n; [|exact H1]. cbn [minus minus_tok app]. destruct (literal_head l Hl) as (c & l' & E & Hc). rewrite E in *.
  apply joined_cons; [split; [reflexivity|apply in_syms; reflexivity]| |exact H1]. cbn. rewrite ?andb_false_r. reflexivity.
Qed.

Lemma op_lexes op : lexes (op_text op) (op_tok op).
Proof. destruct op; cbn; try reflexivity; (split; [reflexivity|apply in_syms; reflexivity]). Qed.
Lemma op_follow op c : opener c = true -> after (op_tok op) c = true.
Proof. revert c. destruct op; apply by_class; vm_compute; reflexivity. Qed.

Lemma sym_one c P : existsb (Ascii.eqb c) syms = true -> existsb (Ascii.eqb c) (B "<>!.") = false -> joined [[c]] [PSym c] P.
Proof.
  intros H1 H2. apply joined_one; [split; [reflexivity|apply in_syms; exact H1]|]. intros d _. cbn [after].
  cbn [B list_ascii_of_string existsb] in H2 |- *. rewrite !orb_false_iff in H2. destruct H2 as (-> & -> & -> & -> & _). reflexivity.
Qed.

Lemma expr_words c : good_words c -> joined (words c) (etoks c) closer /\ match words c with (x :: _) :: _ => opener x = true | _ => False end.
Proof.
  induction c as [p|n l|q s|e IH|op e1 IH1 e2 IH2|e IH]; intros Hg; cbn [words etoks].
  - split; [apply path_words, Hg|reflexivity].
  - split; [apply number_words, Hg|]. destruct n; [reflexivity|]. destruct (literal_head l Hg) as (c & l' & -> & Hc). cbn. unfold opener. rewrite Hc. reflexivity.
  - destruct Hg as [Hq Hs]. split; [|destruct Hq; subst q; reflexivity]. apply joined_one; [exists q; auto|]. intros c _. reflexivity.
  - destruct (IH Hg) as [H1 H2]. split; [|reflexivity]. destruct (words e) as [|[|x w] ws]; try contradiction.
    apply joined_cons; [split; [reflexivity|apply in_syms; reflexivity]| |exact H1]. revert H2. clear. revert x. apply by_class. vm_compute. reflexivity.
  - destruct Hg as [G1 G2]. destruct (IH1 G1) as [A1 A2]. destruct (IH2 G2) as [B1 B2]. split.
    + eapply joined_app; [exact A1| |].
      * cbn [app]. destruct (words e2) as [|[|x w] ws]; try contradiction. apply joined_cons; [apply op_lexes|apply op_follow; exact B2|exact B1].
      * destruct op; reflexivity.
    + destruct (words e1) as [|[|x w] ws]; try contradiction. exact A2.
  - destruct (IH Hg) as [H1 H2]. split; [|reflexivity]. cbn [app]. destruct (words e) as [|[|x w] ws] eqn:E; try contradiction.
    cbn [app]. change ((x :: w) :: ws ++ [B ")"]) with (((x :: w) :: ws) ++ [B ")"]).
    apply (joined_app [B "("] [PSym "("%char] any_char).
    + apply sym_one; reflexivity.
    + eapply joined_app; [exact H1|apply sym_one; reflexivity|reflexivity].
    + reflexivity.
Qed.

Definition num_toks (n : bool * bytes) : list ptok := minus_tok (fst n) ++ [PNumber (snd n)].
Definition opt_toks (n : option (bool * bytes)) : list ptok := match n with Some n => num_toks n | None => [] end.
Definition step_toks (s : cstep) : list ptok :=
  match s with
  | KChild k => [PSym "."; PName k]
  | KChildAny => [PSym "."; PSym "*"]
  | KDesc k => [PParent; PName k]
  | KDescAny => [PParent; PSym "*"]
  | KAll => [PSym "["; PSym "*"; PSym "]"]
  | KSlice lo hi => [PSym "["] ++ opt_toks lo ++ [PSym ":"] ++ opt_toks hi ++ [PSym "]"]
  | KIndex n => [PSym "["] ++ num_toks n ++ [PSym "]"]
  | KFilter c => [PSym "["; PSym "?"; PSym "("] ++ etoks c ++ [PSym ")"; PSym "]"]
  end%char.

Lemma int_words n : fits_int n -> joined (num_words n) (num_toks n) closer /\ match num_words n with (x :: _) :: _ => True | _ => False end.
Proof.
  intros [Hd _]. split; [apply number_words; left; exact Hd|]. unfold num_words. destruct (fst n); [exact I|].
  destruct (literal_head (snd n)) as (c & l & -> & _); [left; exact Hd|exact I].
Qed.
Lemma joined_any b tb Q : joined b tb Q -> match b with (_ :: _) :: _ => True | _ => False end ->
  forall a ta, joined a ta any_char -> joined (a ++ b) (ta ++ tb) Q.
Proof. intros Hb Hn a ta Ha. eapply joined_app; [exact Ha|exact Hb|]. destruct b as [|[|c b0] b]; try contradiction. reflexivity. Qed.

Lemma step_words_ok s : good_step s -> joined (step_words s) (step_toks s) next_step /\ match step_words s with (x :: _) :: _ => next_step x = true | _ => False end.
Proof.
  intros Hg. destruct s as [k| |k| | |lo hi|n|c]; cbn [good_step] in Hg; (split; [|reflexivity]); cbn [step_words step_toks].
  - apply dot_name; [exact Hg|]. apply class_neg. vm_compute. reflexivity.
  - apply joined_cons; [split; [reflexivity|apply in_syms; reflexivity]|reflexivity|]. apply sym_one; reflexivity.
  - destruct (name_head k Hg) as (c & k' & E & _). assert (Hj : joined [k] [PName k] next_step).
    { apply name_word; [exact Hg|]. apply class_neg. vm_compute. reflexivity. }
    rewrite E in *. apply joined_cons; [reflexivity|reflexivity|exact Hj].
  - apply joined_cons; [reflexivity|reflexivity|]. apply sym_one; reflexivity.
  - change [B "["; B "*"; B "]"] with ([B "["] ++ [B "*"] ++ [B "]"]). change [PSym "["%char; PSym "*"%char; PSym "]"%char] with ([PSym "["%char] ++ [PSym "*"%char] ++ [PSym "]"%char]).
    apply joined_any; [apply joined_any; [apply sym_one; reflexivity|exact I|apply sym_one; reflexivity]|exact I|apply sym_one; reflexivity].
  - destruct Hg as (_ & H1 & H2).
    assert (Hhi : joined (opt_words hi ++ [B "]"]) (opt_toks hi ++ [PSym "]"%char]) next_step /\ match opt_words hi ++ [B "]"] with (x :: _) :: _ => True | _ => False end).
    { destruct hi as [n|]; [|split; [apply sym_one; reflexivity|exact I]]. destruct (int_words n (H2 n eq_refl)) as [J1 J2]. cbn [opt_words opt_toks]. split.
      - eapply joined_app; [exact J1|apply sym_one; reflexivity|reflexivity].
      - destruct (num_words n) as [|[|x w] ws]; try contradiction. exact I. }
    destruct Hhi as [Ja Jb].
    assert (Hc : joined ([B ":"] ++ opt_words hi ++ [B "]"]) ([PSym ":"%char] ++ opt_toks hi ++ [PSym "]"%char]) next_step).
    { apply joined_any; [exact Ja|exact Jb|apply sym_one; reflexivity]. }
    apply joined_any; [| |apply sym_one; reflexivity].
    + destruct lo as [n|]; [|exact Hc]. destruct (int_words n (H1 n eq_refl)) as [J1 J2]. cbn [opt_words opt_toks].
      eapply joined_app; [exact J1|exact Hc|reflexivity].
    + destruct lo as [n|]; [|exact I]. destruct (int_words n (H1 n eq_refl)) as [J1 J2]. cbn [opt_words].
      destruct (num_words n) as [|[|x w] ws]; try contradiction. exact I.
  - destruct (int_words n Hg) as [J1 J2]. apply joined_any; [| |apply sym_one; reflexivity].
    + eapply joined_app; [exact J1|apply sym_one; reflexivity|reflexivity].
    + destruct (num_words n) as [|[|x w] ws]; try contradiction. exact I.
  - destruct Hg as [Hg _]. destruct (expr_words c Hg) as [J1 J2].
    apply joined_any.
    + eapply joined_app; [exact J1| |reflexivity]. change [B ")"; B "]"] with ([B ")"] ++ [B "]"]).
      change [PSym ")"%char; PSym "]"%char] with ([PSym ")"%char] ++ [PSym "]"%char]).
      apply joined_any; [apply sym_one; reflexivity|exact I|apply sym_one; reflexivity].
    + destruct (words c) as [|[|x w] ws]; try contradiction. exact I.
    + change [B "["; B "?"; B "("] with ([B "["] ++ [B "?"] ++ [B "("]). change [PSym "["%char; PSym "?"%char; PSym "("%char] with ([PSym "["%char] ++ [PSym "?"%char] ++ [PSym "("%char]).
      apply joined_any; [apply joined_any; [apply sym_one; reflexivity|exact I|apply sym_one; reflexivity]|exact I|apply sym_one; reflexivity].
Qed.

Lemma query_words_ok q : Forall good_step q -> joined (query_words q) (PSym "$"%char :: flat_map step_toks q) next_step.
Proof.
  intros Hq. unfold query_words. assert (H : q = [] \/ (joined (flat_map step_words q) (flat_map step_toks q) next_step /\
    match flat_map step_words q with (x :: _) :: _ => next_step x = true | _ => False end)).
  { induction Hq as [|s q Hs Hq IH]; [left; reflexivity|]. right. destruct (step_words_ok s Hs) as [J1 J2]. cbn [flat_map].
    split; [|destruct (step_words s) as [|[|x w] ws]; try contradiction; exact J2].
    destruct IH as [->|[I1 I2]]; [cbn; rewrite !app_nil_r; exact J1|]. eapply joined_app; [exact J1|exact I1|exact I2]. }
  destruct H as [->|[H1 H2]]; [apply sym_one; reflexivity|].
  apply (joined_any _ _ _ H1) with (a := [B "$"]) (ta := [PSym "$"%char]); [|apply sym_one; reflexivity].
  destruct (flat_map step_words q) as [|[|x w] ws]; try contradiction. exact I.
Qed.

(** * Expressions *)
Fixpoint ast_of (c : cexpr) : ast :=
  match c with
  | CField p => fold_left (fun a k => AConcat a (AId k)) p ARef
  | CNum n l => ANum n l
  | CStr _ s => AStr s
  | CNot e => ANot (ast_of e)
  | CBin op e1 e2 => AOp op (ast_of e1) (ast_of e2)
  | CParen e => ast_of e
  end.

Lemma expr_of_ast c : expr_of (ast_of c) = Some (plain c).
Proof.
  induction c as [p|n l|q s|e IH|op e1 IH1 e2 IH2|e IH]; cbn [ast_of plain expr_of]; try reflexivity.
  - assert (H : forall a p0, expr_of a = Some (EField p0) -> expr_of (fold_left (fun a k => AConcat a (AId k)) p a) = Some (EField (p0 ++ p))).
    { induction p as [|k p IH]; intros a p0 Ha; [rewrite app_nil_r; exact Ha|]. cbn [fold_left]. rewrite (IH _ (p0 ++ [k])).
      - rewrite <- app_assoc. reflexivity.
      - cbn. rewrite Ha. reflexivity. }
    apply (H ARef []). reflexivity.
  - rewrite IH. reflexivity.
  - rewrite IH1, IH2. reflexivity.
  - exact IH.
Qed.

(** The stack and the current expression after the words of an expression. *)
Fixpoint hang (c : cexpr) (K : list frame) : list frame * ast :=
  match c with
  | CBin op l r => hang r (FBin op (ast_of l) :: K)
  | CNot e => hang e (FNot :: K)
  | _ => (K, ast_of c)
  end.
(** No operator of the left edge makes the frame below reduce. *)
Fixpoint holds_back (f : frame) (c : cexpr) : bool :=
  match c with CBin op l _ => negb (reduces f op) && holds_back f l | _ => true end.
(** The operator makes everything on the right edge reduce. *)
Fixpoint gives_way (op : binop) (c : cexpr) : bool :=
  match c with
  | CBin o l r => reduces (FBin o (ast_of l)) op && gives_way op r
  | CNot e => reduces FNot op && gives_way op e
  | _ => true
  end.

Lemma collapse_op op c : gives_way op c = true -> forall K,
  reduce_op op (fst (hang c K)) (snd (hang c K)) = reduce_op op K (ast_of c).
Proof.
  induction c as [p|n l|q s|e IH|o e1 IH1 e2 IH2|e IH]; intros H K; cbn [hang gives_way] in *; try reflexivity.
  - apply andb_true_iff in H as [H1 H2]. rewrite (IH H2). cbn [reduce_op]. rewrite H1. reflexivity.
  - apply andb_true_iff in H as [H1 H2]. rewrite (IH2 H2). cbn [reduce_op]. rewrite H1. reflexivity.
Qed.
Lemma collapse_close c K : reduce_close (fst (hang c K)) (snd (hang c K)) = reduce_close K (ast_of c).
Proof.
  revert K. induction c as [p|n l|q s|e IH|o e1 IH1 e2 IH2|e IH]; intros K; cbn [hang]; try reflexivity.
  - rewrite IH. reflexivity.
  - rewrite IH2. reflexivity.
Qed.

(** With the parentheses of the convention and of [careful]. *)
Lemma declared_mono a b : (prec a <= prec b)%nat -> a <> BMod -> b <> BMod -> exists x y, declared a = Some x /\ declared b = Some y /\ (x <= y)%nat.
Proof. destruct a, b; cbn; intros H H1 H2; try congruence; eexists; eexists; (split; [reflexivity|]); (split; [reflexivity|]); lia. Qed.
Lemma declared_strict a b : (prec a < prec b)%nat -> a <> BMod -> b <> BMod -> ~ (a = BOr /\ b = BAnd) ->
  exists x y, declared a = Some x /\ declared b = Some y /\ (x < y)%nat.
Proof. destruct a, b; cbn; intros H H1 H2 H3; try congruence; try lia; try (exfalso; apply H3; auto; fail); eexists; eexists; (split; [reflexivity|]); (split; [reflexivity|]); lia. Qed.

Definition no_mod (c : cexpr) : bool := negb (head_is BMod c).
Lemma careful_bin op l r : op <> BMod -> careful (CBin op l r) = true ->
  no_mod l = true /\ no_mod r = true /\ careful l = true /\ careful r = true /\ (op = BOr -> head_is BAnd r = false).
Proof.
  intros Hop H. unfold no_mod. destruct op; cbn [careful] in H; try congruence; rewrite !andb_true_iff in H; repeat split; try apply H;
    intros E; try discriminate; apply negb_true_iff, H.
Qed.
Lemma gives_way_ok op c : op <> BMod -> grouped c = true -> careful c = true -> no_mod c = true -> (prec op <= level c)%nat -> gives_way op c = true.
Proof.
  intros Hop. induction c as [p|n l|q s|e IH|o e1 IH1 e2 IH2|e IH]; intros Hg Hc Hm Hl; try reflexivity; cbn [gives_way grouped level] in *.
  - apply andb_true_iff in Hg as [G1 G2]. apply Nat.leb_le in G1. cbn [careful] in Hc. apply andb_true_iff in Hc as [C1 C2].
    rewrite IH; auto; [|lia]. destruct op; try reflexivity. congruence.
  - rewrite !andb_true_iff in Hg. destruct Hg as [[[G1 G2] G3] G4]. apply Nat.ltb_lt in G2.
    assert (Ho : o <> BMod) by (intros ->; discriminate). destruct (careful_bin _ _ _ Ho Hc) as (C1 & C2 & C3 & C4 & _).
    rewrite (IH2 G4 C4 C2) by (clear - Hl G2; lia). rewrite andb_true_r. destruct (declared_mono op o Hl Hop Ho) as (x & y & Ex & Ey & Hxy).
    unfold reduces. cbn [rule_prec]. rewrite Ex, Ey. apply Nat.leb_le. exact Hxy.
Qed.
Lemma holds_back_ok op l c : op <> BMod -> grouped c = true -> careful c = true -> no_mod c = true -> (prec op < level c)%nat ->
  (op = BOr -> head_is BAnd c = false) -> holds_back (FBin op l) c = true.
Proof.
  intros Hop. induction c as [p|n l0|q s|e IH|o e1 IH1 e2 IH2|e IH]; intros Hg Hc Hm Hl Ha; try reflexivity; cbn [holds_back grouped level] in *.
  rewrite !andb_true_iff in Hg. destruct Hg as [[[G1 G2] G3] G4]. apply Nat.leb_le in G1.
  assert (Ho : o <> BMod) by (intros ->; discriminate). destruct (careful_bin _ _ _ Ho Hc) as (C1 & C2 & C3 & C4 & _).
  assert (Hn : ~ (op = BOr /\ o = BAnd)). { intros [-> ->]. specialize (Ha eq_refl). discriminate. }
  assert (Hl1 : (prec op < level e1)%nat) by (eapply Nat.lt_le_trans; [exact Hl|exact G1]).
  assert (Ha1 : op = BOr -> head_is BAnd e1 = false).
  { intros ->. destruct e1 as [| | | |o1 ? ?|]; try reflexivity. destruct o1; try reflexivity. cbn [prec level] in Hl, G1. exfalso. apply Hn.
    split; [reflexivity|]. destruct o; cbn [prec] in Hl, G1; try reflexivity; exfalso; clear - Hl G1; lia. }
  rewrite (IH1 G3 C3 C1 Hl1 Ha1), andb_true_r. destruct (declared_strict op o Hl Hop Ho Hn) as (x & y & Ex & Ey & Hxy).
  unfold reduces. cbn [rule_prec]. rewrite Ex, Ey. apply negb_true_iff, Nat.leb_gt. exact Hxy.
Qed.
Lemma atomic_edges c : atomic c = true -> (forall op, gives_way op c = true) /\ (forall f, holds_back f c = true).
Proof. destruct c; try discriminate; auto. destruct op; discriminate. Qed.
Lemma holds_not c : (6 <= level c)%nat -> holds_back FNot c = true.
Proof. destruct c; auto. destruct op; cbn; lia. Qed.
Lemma holds_paren c : holds_back FParen c = true.
Proof. induction c; auto. Qed.

Lemma edges op l r : grouped (CBin op l r) = true -> careful (CBin op l r) = true ->
  gives_way op l = true /\ holds_back (FBin op (ast_of l)) r = true.
Proof.
  intros Hg Hc. cbn [grouped] in Hg. rewrite !andb_true_iff in Hg. destruct Hg as [[[G1 G2] G3] G4].
  apply Nat.leb_le in G1. apply Nat.ltb_lt in G2. destruct (list_eq_dec Nat.eq_dec [prec op] []) as [|_]; [discriminate|].
  assert (Hd : op = BMod \/ op <> BMod) by (destruct op; auto; right; discriminate). destruct Hd as [->|Ho].
  - cbn [careful] in Hc. rewrite !andb_true_iff in Hc. split; [apply atomic_edges, Hc|apply (atomic_edges r), Hc].
  - destruct (careful_bin _ _ _ Ho Hc) as (C1 & C2 & C3 & C4 & C5). split; [apply gives_way_ok; auto|apply holds_back_ok; auto].
Qed.
Lemma careful_parts op l r : careful (CBin op l r) = true -> careful l = true /\ careful r = true.
Proof. destruct op; cbn; rewrite !andb_true_iff; intros H; split; apply H. Qed.

Lemma parse_op op ts K e : parse_expr (op_tok op :: ts) K (Some e) =
  parse_expr ts (FBin op (snd (reduce_op op K e)) :: fst (reduce_op op K e)) None.
Proof. cbn -[reduce_op]. destruct op; cbn -[reduce_op]; destruct (reduce_op _ K e); reflexivity. Qed.

Lemma parse_names p ts K e : parse_expr (flat_map (fun k => [PSym "."%char; PName k]) p ++ ts) K (Some e)
  = parse_expr ts K (Some (fold_left (fun a k => AConcat a (AId k)) p e)).
Proof. revert e. induction p as [|k p IH]; intros e; [reflexivity|]. cbn [flat_map app fold_left]. cbn [parse_expr property]. apply IH. Qed.

Lemma parse_ok c : grouped c = true -> careful c = true -> forall K ts,
  match K with f :: _ => holds_back f c = true | [] => True end ->
  parse_expr (etoks c ++ ts) K None = parse_expr ts (fst (hang c K)) (Some (snd (hang c K))).
Proof.
  induction c as [p|n l|q s|e IH|op e1 IH1 e2 IH2|e IH]; intros Hg Hc K ts HK.
  - cbn [etoks app hang fst snd ast_of]. cbn [parse_expr]. apply parse_names.
  - destruct n; reflexivity.
  - reflexivity.
  - cbn [grouped careful] in Hg, Hc. apply andb_true_iff in Hg as [G1 G2]. apply andb_true_iff in Hc as [C1 C2]. apply Nat.leb_le in G1.
    cbn [etoks app hang]. cbn [parse_expr]. apply IH; auto. apply holds_not. exact G1.
  - destruct (edges _ _ _ Hg Hc) as [E1 E2]. destruct (careful_parts _ _ _ Hc) as [C1 C2].
    cbn [grouped] in Hg. rewrite !andb_true_iff in Hg. destruct Hg as [[[G1 G2] G3] G4].
    cbn [etoks hang]. rewrite <- app_assoc. cbn [app]. rewrite IH1; auto.
    + rewrite parse_op, collapse_op by exact E1.
      assert (Hk : reduce_op op K (ast_of e1) = (K, ast_of e1)).
      { destruct K as [|f K]; [reflexivity|]. cbn [holds_back] in HK. apply andb_true_iff in HK as [HK _]. apply negb_true_iff in HK. cbn. rewrite HK. reflexivity. }
      rewrite Hk. cbn [fst snd]. apply IH2; auto.
    + destruct K as [|f K]; [exact I|]. cbn [holds_back] in HK. apply andb_true_iff in HK. apply HK.
  - cbn [etoks app hang fst snd ast_of]. rewrite <- app_assoc. cbn [parse_expr app]. rewrite IH; auto; [|apply holds_paren].
    cbn [parse_expr]. rewrite collapse_close. reflexivity.
Qed.

Lemma parse_filter c ts : grouped c = true -> careful c = true -> parse_expr (etoks c ++ PSym ")"%char :: ts) [] None = Some (ast_of c, ts).
Proof. intros Hg Hc. rewrite parse_ok by auto. cbn [parse_expr]. rewrite collapse_close. reflexivity. Qed.

(** * Paths *)
Definition num_ast (n : bool * bytes) : ast := ANum (fst n) (snd n).
Definition extend (l : ast) (s : cstep) : ast :=
  match s with
  | KChild k => AConcat l (AId k)
  | KChildAny => AConcat l AWild
  | KDesc k => AParent l (AId k)
  | KDescAny => AParent l AWild
  | KAll => APred l AWild
  | KSlice lo hi => APred l (ARange (option_map num_ast lo) (option_map num_ast hi))
  | KIndex n => APred l (num_ast n)
  | KFilter c => APred l (AFilter (ast_of c))
  end.

Lemma parse_step s : good_step s -> careful_step s = true -> forall n l ts,
  parse_path (S n) l (step_toks s ++ ts) = parse_path n (extend l s) ts.
Proof.
  intros Hg Hc n l ts. destruct s as [k| |k| | |lo hi|i|c]; try reflexivity.
  - destruct Hg as [Hn _]. destruct lo as [[[] lo]|], hi as [[[] hi]|]; try reflexivity. destruct Hn; congruence.
  - destruct i as [[] i]; reflexivity.
  - destruct Hg as [_ Hg]. cbn [careful_step] in Hc. cbn [step_toks app]. rewrite <- app_assoc. cbn [app].
    cbn [parse_path parse_predicate]. rewrite parse_filter by auto. reflexivity.
Qed.

Lemma lit_ok n : fits_int n -> int_of (num_ast n) = Some (integer n).
Proof.
  destruct n as [neg l]. intros [Hd Hm]. cbn [snd] in *. cbn [num_ast fst snd int_of]. unfold lit_value, integer. cbn [fst snd].
  apply digits_forall in Hd as [Hn Hd]. destruct l as [|c l]; [congruence|].
  assert (E : forallb is_digit_c (c :: l) = true) by exact Hd. rewrite E.
  change (fold_left (fun n c => 10 * n + Z.of_nat (nat_of_ascii c - 48)) (c :: l) 0) with (decimal (c :: l)).
  apply Z.leb_le in Hm. rewrite Hm. reflexivity.
Qed.

Lemma query_step l s q : good_step s -> query_of l = Some q -> query_of (extend l s) = Some (q ++ [step_of s]).
Proof.
  intros Hg Hl. destruct s as [k| |k| | |lo hi|n|c]; cbn [extend query_of]; rewrite ?Hl; try reflexivity.
  - destruct Hg as (_ & H1 & H2).
    assert (Ho : forall o, (forall n, o = Some n -> fits_int n) -> opt_int (option_map num_ast o) = Some (option_map integer o)).
    { intros [n|] H; [|reflexivity]. cbn [option_map opt_int]. rewrite (lit_ok n (H n eq_refl)). reflexivity. }
    rewrite (Ho lo H1), (Ho hi H2). reflexivity.
  - pose proof (lit_ok n Hg) as H. destruct n as [neg i]. unfold num_ast in *. cbn [fst snd] in *. rewrite H. reflexivity.
  - rewrite expr_of_ast. reflexivity.
Qed.

Lemma path_ok q : Forall good_step q -> forallb careful_step q = true -> forall n l q0, (List.length q <= n)%nat -> query_of l = Some q0 ->
  exists a, parse_path n l (flat_map step_toks q) = Some a /\ query_of a = Some (q0 ++ map step_of q).
Proof.
  induction q as [|s q IH]; intros Hg Hc n l q0 Hn Hl.
  - exists l. split; [destruct n; reflexivity|]. cbn. rewrite app_nil_r. exact Hl.
  - inversion_clear Hg as [|? ? G1 G2]. cbn [forallb] in Hc. apply andb_true_iff in Hc as [C1 C2]. cbn [List.length] in Hn. destruct n as [|n]; [lia|].
    cbn [flat_map]. rewrite parse_step by auto.
    destruct (IH G2 C2 n (extend l s) (q0 ++ [step_of s])) as (a & Ha & Hq); [lia|apply query_step; auto|].
    exists a. split; [exact Ha|]. rewrite Hq, <- app_assoc. reflexivity.
Qed.

Lemma toks_length q : (List.length q <= List.length (flat_map step_toks q))%nat.
Proof. induction q as [|s q IH]; [constructor|]. cbn [flat_map]. rewrite app_length. destruct s; cbn [step_toks app List.length]; lia. Qed.

Theorem parsed q s : Forall good_step q -> forallb careful_step q = true -> written (query_words q) s ->
  exists a, analysisJSONPath s = Some a /\ query_of a = Some (map step_of q).
Proof.
  intros Hg Hc Hw. unfold analysisJSONPath. rewrite (scan_ok _ _ _ _ Hw (query_words_ok q Hg)).
  destruct (path_ok q Hg Hc (List.length (flat_map step_toks q)) ARoot []) as (a & Ha & Hq); [apply toks_length|reflexivity|].
  exists a. split; [exact Ha|exact Hq].
Qed.

Theorem compiled_from_string strict q s : Forall good_step q -> forallb careful_step q = true -> written (query_words q) s ->
  createFromString strict s = Some (Run.createPathProcessor strict (map step_of q)).
Proof.
  intros Hg Hc Hw. destruct (parsed q s Hg Hc Hw) as (a & Ha & Hq). unfold createFromString. rewrite Ha, Hq. reflexivity.
Qed.
