(** The meaning of a query step by step, down to the children of a value. *)
From Verif Require Import Base Spec QueryClass.
Open Scope Z_scope.

(** Members and elements with their labels, in order. *)
Fixpoint members_of (ms : members) : list (label * json) :=
  match ms with MNil => [] | MCons _ k v ms' => (LKey k, v) :: members_of ms' end.
Fixpoint elements_of (i : nat) (es : elements) : list (label * json) :=
  match es with ENil => [] | ECons _ v _ es' => (LIdx i, v) :: elements_of (S i) es' end.
Definition children (v : json) : list (label * json) :=
  match v with JObj _ ms => members_of ms | JArr _ es => elements_of 0 es | _ => [] end.

(** The fields of that name and the elements of a value. *)
Definition fields_named (k : bytes) (v : json) : list json :=
  match v with
  | JObj _ ms => map snd (filter (fun c => match fst c with LKey k' => beq k k' | LIdx _ => false end) (members_of ms))
  | _ => []
  end.
Definition elements_in (v : json) : list json := match v with JArr _ es => map snd (elements_of 0 es) | _ => [] end.

Lemma nodes_shift :
  (forall v p r, nodes (p ++ r) v = map (fun n => (p ++ fst n, snd n)) (nodes r v)) /\
  (forall ms p r, nodes_ms (p ++ r) ms = map (fun n => (p ++ fst n, snd n)) (nodes_ms r ms)) /\
  (forall es p r i, nodes_es (p ++ r) i es = map (fun n => (p ++ fst n, snd n)) (nodes_es r i es)).
Proof.
  apply json_all_ind.
  - reflexivity.
  - reflexivity.
  - intros w ms IH p r. cbn [nodes]. rewrite map_app, IH. reflexivity.
  - intros w es IH p r. cbn [nodes]. rewrite map_app, IH. reflexivity.
  - reflexivity.
  - intros m k v IHv ms IHm p r. cbn [nodes_ms]. rewrite map_app, <- app_assoc, IHv, IHm. reflexivity.
  - reflexivity.
  - intros wb v IHv wa es IHe p r i. cbn [nodes_es]. rewrite map_app, <- app_assoc, IHv, IHe. reflexivity.
Qed.
Lemma nodes_at l v : nodes [(l, v)] v = map (fun n => ((l, v) :: fst n, snd n)) (nodes [] v).
Proof. exact (proj1 nodes_shift v [(l, v)] []). Qed.

Lemma nodes_children v : nodes [] v = flat_map (fun c => map (fun n => (c :: fst n, snd n)) (nodes [] (snd c))) (children v) ++ [([], v)].
Proof.
  destruct v as [s|s|w ms|w es]; try reflexivity; cbn [nodes children]; f_equal.
  - induction ms as [|m k v ms IH]; [reflexivity|]. cbn [nodes_ms members_of flat_map app snd]. rewrite nodes_at, IH. reflexivity.
  - generalize O as i. induction es as [|wb v wa es IH]; intros i; [reflexivity|]. cbn [nodes_es elements_of flat_map app snd]. rewrite nodes_at, IH. reflexivity.
Qed.

Section Steps.
  Variable holds : expr -> json -> bool.

  (** Does a step lead to a child? *)
  Definition takes (s : step) (c : label * json) : bool :=
    match s with
    | SChild k => match fst c with LKey k' => beq k k' | LIdx _ => false end
    | SChildAny => true
    | SAll => match fst c with LKey _ => false | LIdx _ => true end
    | SSlice lo hi => match fst c with LKey _ => false | LIdx i => in_slice lo hi i end
    | SIndex n => match fst c with LKey _ => false | LIdx i => Z.of_nat i =? n end
    | SFilter e => match fst c with LKey _ => false | LIdx _ => is_object (snd c) && holds e (snd c) end
    | SDesc _ | SDescAny => false
    end.
  Definition down (s : step) : bool := match s with SDesc _ | SDescAny => false | _ => true end.

  Lemma selects_step s q c p : down s = true -> selects holds (s :: q) (c :: p) = takes s c && selects holds q p.
  Proof. destruct c as [l v]. destruct s; try discriminate; intros _; cbn [selects takes fst snd]; reflexivity. Qed.

  Lemma filter_flat_map {A C} (f : C -> bool) (g : A -> list C) l : filter f (flat_map g l) = flat_map (fun a => filter f (g a)) l.
  Proof. induction l as [|a l IH]; [reflexivity|]. cbn. rewrite filter_app, IH. reflexivity. Qed.
  Lemma map_flat_map {A C D} (f : C -> D) (g : A -> list C) l : map f (flat_map g l) = flat_map (fun a => map f (g a)) l.
  Proof. induction l as [|a l IH]; [reflexivity|]. cbn. rewrite map_app, IH. reflexivity. Qed.
  Lemma filter_map_comm {A C} (f : C -> bool) (g : A -> C) l : filter f (map g l) = map g (filter (fun a => f (g a)) l).
  Proof. induction l as [|a l IH]; [reflexivity|]. cbn. destruct (f (g a)); cbn; rewrite IH; reflexivity. Qed.
  Lemma flat_map_filter {A C} (f : A -> bool) (g : A -> list C) l : flat_map (fun a => if f a then g a else []) l = flat_map g (filter f l).
  Proof. induction l as [|a l IH]; [reflexivity|]. cbn. destruct (f a); cbn; rewrite IH; reflexivity. Qed.

  Lemma answer_step s q v : down s = true -> answer holds (s :: q) v = flat_map (fun c => answer holds q (snd c)) (filter (takes s) (children v)).
  Proof.
    intros Hs. unfold answer. rewrite nodes_children, filter_app, map_app. cbn [filter fst selects map]. rewrite app_nil_r.
    rewrite filter_flat_map, map_flat_map, <- flat_map_filter. apply flat_map_ext. intros c.
    rewrite filter_map_comm, map_map. cbn [fst snd].
    destruct (takes s c) eqn:E.
    - f_equal. apply filter_ext. intros n. rewrite selects_step, E by exact Hs. reflexivity.
    - rewrite (filter_ext _ (fun _ => false)); [|intros n; rewrite selects_step, E by exact Hs; reflexivity].
      induction (nodes [] (snd c)); [reflexivity|assumption].
  Qed.
  Lemma answer_nil v : answer holds [] v = [v].
  Proof.
    unfold answer. rewrite nodes_children, filter_app, map_app. cbn [filter fst selects map].
    rewrite filter_flat_map, map_flat_map. replace (flat_map _ (children v)) with (@nil json); [reflexivity|].
    symmetry. induction (children v) as [|c l IH]; [reflexivity|]. cbn [flat_map]. rewrite IH, app_nil_r, filter_map_comm.
    rewrite (filter_ext _ (fun _ => false)); [|destruct c; reflexivity]. induction (nodes [] (snd c)); [reflexivity|assumption].
  Qed.

  (** Steps compose. *)
  Theorem answer_app : forall q1 q2 v, forallb down q1 = true -> answer holds (q1 ++ q2) v = flat_map (answer holds q2) (answer holds q1 v).
  Proof.
    induction q1 as [|s q1 IH]; intros q2 v H.
    - rewrite answer_nil. cbn. rewrite app_nil_r. reflexivity.
    - cbn [forallb] in H. apply andb_true_iff in H. destruct H as [H1 H2]. cbn [app]. rewrite !answer_step by exact H1.
      induction (filter (takes s) (children v)) as [|c l IHl]; [reflexivity|]. cbn [flat_map]. rewrite flat_map_app, <- IHl, (IH q2 (snd c) H2). reflexivity.
  Qed.

  Lemma filter_none {A} (f : A -> bool) l : (forall a, In a l -> f a = false) -> filter f l = [].
  Proof. induction l as [|a l IH]; intros H; [reflexivity|]. cbn. rewrite (H a (or_introl eq_refl)). apply IH. intros; apply H; right; assumption. Qed.
  Lemma filter_all {A} (f : A -> bool) l : (forall a, In a l -> f a = true) -> filter f l = l.
  Proof. induction l as [|a l IH]; intros H; [reflexivity|]. cbn. rewrite (H a (or_introl eq_refl)). f_equal. apply IH. intros; apply H; right; assumption. Qed.
  Lemma members_keys ms c : In c (members_of ms) -> exists k, fst c = LKey k.
  Proof. induction ms as [|m k v ms IH]; cbn; intros H; [contradiction|]. destruct H as [<-|H]; [eexists; reflexivity|auto]. Qed.
  Lemma elements_idx es : forall i c, In c (elements_of i es) -> exists j, fst c = LIdx j.
  Proof. induction es as [|wb v wa es IH]; cbn; intros i c H; [contradiction|]. destruct H as [<-|H]; [eexists; reflexivity|eauto]. Qed.

  Lemma flat_map_self (l : list (label * json)) : flat_map (fun c => [snd c]) l = map snd l.
  Proof. induction l as [|a l IH]; [reflexivity|]. cbn. rewrite IH. reflexivity. Qed.

  Lemma answer_field k v : answer holds [SChild k] v = fields_named k v.
  Proof.
    rewrite answer_step by reflexivity. rewrite (flat_map_ext _ (fun c => [snd c])) by (intros c; apply answer_nil). rewrite flat_map_self.
    destruct v as [s|s|w ms|w es]; try reflexivity. cbn [children]. rewrite filter_none; [reflexivity|].
    intros c Hc. apply elements_idx in Hc. destruct Hc as (i & E). cbn [takes]. rewrite E. reflexivity.
  Qed.
  Lemma answer_all v : answer holds [SAll] v = elements_in v.
  Proof.
    rewrite answer_step by reflexivity. rewrite (flat_map_ext _ (fun c => [snd c])) by (intros c; apply answer_nil). rewrite flat_map_self.
    destruct v as [s|s|w ms|w es]; try reflexivity; cbn [children elements_in].
    - rewrite filter_none; [reflexivity|]. intros c Hc. apply members_keys in Hc. destruct Hc as (i & E). cbn [takes]. rewrite E. reflexivity.
    - rewrite filter_all; [reflexivity|]. intros c Hc. apply elements_idx in Hc. destruct Hc as (i & E). cbn [takes]. rewrite E. reflexivity.
  Qed.
  Lemma answer_filter e v : answer holds [SFilter e] v = filter (fun u => is_object u && holds e u) (elements_in v).
  Proof.
    rewrite answer_step by reflexivity. rewrite (flat_map_ext _ (fun c => [snd c])) by (intros c; apply answer_nil). rewrite flat_map_self.
    destruct v as [s|s|w ms|w es]; try reflexivity; cbn [children elements_in].
    - rewrite filter_none; [reflexivity|]. intros c Hc. apply members_keys in Hc. destruct Hc as (i & E). cbn [takes]. rewrite E. reflexivity.
    - rewrite filter_map_comm. f_equal. apply filter_ext_in. intros c Hc. apply elements_idx in Hc. destruct Hc as (i & E). cbn [takes]. rewrite E. reflexivity.
  Qed.

  (** A filter followed by other steps. *)
  Theorem filter_then q e q2 v : forallb down q = true ->
    answer holds (q ++ SFilter e :: q2) v =
    flat_map (fun u => if is_object u && holds e u then answer holds q2 u else []) (flat_map elements_in (answer holds q v)).
  Proof.
    intros H. rewrite (answer_app q _ v H). rewrite flat_map_concat_map, flat_map_concat_map, flat_map_concat_map.
    induction (answer holds q v) as [|a l IH]; [reflexivity|]. cbn [map concat]. rewrite map_app, concat_app, IH. f_equal.
    change (SFilter e :: q2) with ([SFilter e] ++ q2). rewrite answer_app by reflexivity. rewrite answer_filter, <- flat_map_concat_map.
    rewrite flat_map_filter. reflexivity.
  Qed.
End Steps.
