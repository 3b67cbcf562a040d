(** TreeThms.v -- proofs about TreeNode, TreeNodeChild and derive(TreeNode) *)
From Verif Require Import Base Span Selmaho Lex Cst Derive TreeDerive SpecTree CstTree.
From Coq Require Import Lia Arith.
Local Open Scope list_scope.

(** ** First and last answers *)

Lemma find_map_first {A} (f : A -> option N) l : first_of f l (find_map f l).
Proof.
  induction l as [|x l IH]; [constructor|]. cbn [find_map or_else]. destruct (f x) as [a|] eqn:E; cbn [or_else].
  - exists [], x, l. auto.
  - destruct (find_map f l) as [a|]; cbn in *; [|constructor; assumption].
    destruct IH as (p & y & q & -> & H1 & H2). exists (x :: p), y, q. auto.
Qed.

Lemma first_return_find {A} (f : A -> option N) l : first_return (map f l) = find_map f l.
Proof. induction l as [|x l IH]; [reflexivity|]. cbn. destruct (f x); [reflexivity|exact IH]. Qed.

Lemma find_map_rev_last {A} (f : A -> option N) l : last_of f l (find_map f (rev l)).
Proof.
  pose proof (find_map_first f (rev l)) as H. destruct (find_map f (rev l)) as [a|]; cbn in *.
  - destruct H as (p & x & q & E & H1 & H2). exists (rev q), x, (rev p). split.
    + rewrite <- (rev_involutive l), E, rev_app_distr. cbn. rewrite <- app_assoc. reflexivity.
    + split; [exact H1|]. apply Forall_rev, H2.
  - apply Forall_rev in H. rewrite rev_involutive in H. exact H.
Qed.

Lemma first_of_unique {A} (f : A -> option N) l : forall r r', first_of f l r -> first_of f l r' -> r = r'.
Proof.
  assert (N : forall a l, first_of f l (Some a) -> Forall (fun x => f x = None) l -> False).
  { intros a l0 (p & x & q & -> & H & _) F. apply Forall_app in F as [_ F]. inversion F; congruence. }
  intros [a|] [b|] H H'; auto; [|destruct (N _ _ H H')|destruct (N _ _ H' H)].
  destruct H as (p & x & q & -> & H1 & H2), H' as (p' & x' & q' & E & H1' & H2').
  revert p' E H2'. induction p as [|y p IH]; intros [|y' p'] E H2'; cbn in E.
  - congruence.
  - injection E as -> E. inversion H2'; congruence.
  - injection E as -> E. inversion H2; congruence.
  - injection E as -> E. inversion H2; subst. inversion H2'; subst. eapply IH; eassumption.
Qed.

Lemma last_of_rev {A} (f : A -> option N) l r : last_of f l r -> first_of f (rev l) r.
Proof.
  destruct r as [a|]; cbn.
  - intros (p & x & q & -> & H1 & H2). exists (rev q), x, (rev p). rewrite rev_app_distr. cbn. rewrite <- app_assoc.
    split; [reflexivity|]. split; [exact H1|]. apply Forall_rev, H2.
  - apply Forall_rev.
Qed.

Lemma find_map_is {A} (f : A -> option N) l r : first_of f l r -> find_map f l = r.
Proof. intros H. eapply first_of_unique; [apply find_map_first|exact H]. Qed.

Lemma find_map_rev_is {A} (f : A -> option N) l r : last_of f l r -> find_map f (rev l) = r.
Proof. intros H. apply find_map_is, last_of_rev, H. Qed.

Lemma fold_orb l : forall b, fold_left orb l b = b || existsb (fun x => x) l.
Proof. induction l as [|x l IH]; intros b; cbn; [rewrite orb_false_r; reflexivity|]. rewrite IH, orb_assoc. reflexivity. Qed.

Lemma exp_exists l : existsb c_exp l = true <-> exists c, In c l /\ c_exp c = true.
Proof. apply existsb_exists. Qed.

Lemma exp_fold l : fold_left orb (map c_exp l) false = existsb c_exp l.
Proof. rewrite fold_orb. cbn. induction l as [|x l IH]; [reflexivity|]. cbn. rewrite IH. reflexivity. Qed.

Lemma find_map_app {A B} (f : A -> option B) a b : find_map f (a ++ b) = or_else (find_map f a) (find_map f b).
Proof. induction a as [|x a IH]; [reflexivity|]. cbn. rewrite IH. destruct (f x); reflexivity. Qed.

(** ** The impls give what they should *)

Definition canon (cs : list child) : list node * bool * option N * option N :=
  (List.concat (map c_nodes cs), existsb c_exp cs, find_map c_start cs, find_map c_end (rev cs)).

Lemma made_canon cs nodes ex st en : made_of cs nodes ex st en <-> (nodes, ex, st, en) = canon cs.
Proof.
  unfold canon, made_of. split.
  - intros (-> & H2 & H3 & H4). rewrite (find_map_is _ _ _ H3), (find_map_rev_is _ _ _ H4).
    f_equal. f_equal. f_equal. apply eq_true_iff_eq. rewrite H2, exp_exists. reflexivity.
  - intros [= -> -> -> ->]. split; [reflexivity|]. split; [apply exp_exists|].
    split; [apply find_map_first|apply find_map_rev_last].
Qed.

Lemma impl_made fs : made_of fs (for_each_child_impl fs) (experimental_impl fs) (start_location_impl fs) (end_location_impl fs).
Proof.
  apply made_canon. unfold canon, for_each_child_impl, experimental_impl, start_location_impl, end_location_impl.
  rewrite exp_fold, !first_return_find. reflexivity.
Qed.

Lemma tuple_made l : made_of l (c_nodes (tuple_child l)) (c_exp (tuple_child l)) (c_start (tuple_child l)) (c_end (tuple_child l)).
Proof. apply made_canon. unfold canon, tuple_child. cbn. rewrite exp_fold, first_return_find. reflexivity. Qed.

Lemma slice_made l : made_of l (c_nodes (slice_child l)) (c_exp (slice_child l)) (c_start (slice_child l)) (c_end (slice_child l)).
Proof. apply made_canon. unfold canon, slice_child. cbn. rewrite flat_map_concat_map. reflexivity. Qed.

Definition inter (rest : list (child * child)) : list child := flat_map (fun p => [fst p; snd p]) rest.

Lemma separated_made f rest : let x := separated_node f rest in
  made_of (f :: inter rest) (n_kids x) (n_exp x) (n_start x) (n_end x).
Proof.
  cbv zeta. apply made_canon. unfold canon, separated_node, inter. cbn [n_kids n_exp n_start n_end map existsb find_map List.concat rev].
  rewrite find_map_app. cbn [find_map].
  assert (E1 : forall rest, flat_map (fun '(separator, item) => c_nodes separator ++ c_nodes item) rest =
    List.concat (map c_nodes (flat_map (fun p => [fst p; snd p]) rest))).
  { clear. induction rest as [|[a b] r IH]; [reflexivity|]. cbn [flat_map fst snd app map List.concat]. rewrite IH, app_assoc. reflexivity. }
  assert (E2 : forall rest, existsb (fun '(separator, item) => c_exp separator || c_exp item) rest =
    existsb c_exp (flat_map (fun p => [fst p; snd p]) rest)).
  { clear. induction rest as [|[a b] r IH]; [reflexivity|]. cbn [flat_map fst snd app existsb]. rewrite IH, orb_assoc. reflexivity. }
  assert (E3 : forall rest, find_map (fun '(separator, item) => or_else (c_start separator) (c_start item)) rest =
    find_map c_start (flat_map (fun p => [fst p; snd p]) rest)).
  { clear. induction rest as [|[a b] r IH]; [reflexivity|]. cbn [flat_map fst snd app find_map]. rewrite IH.
    destruct (c_start a); reflexivity. }
  assert (E4 : forall rest, find_map (fun '(separator, item) => or_else (c_end item) (c_end separator)) (rev rest) =
    find_map c_end (rev (flat_map (fun p => [fst p; snd p]) rest))).
  { clear. induction rest as [|[a b] r IH]; [reflexivity|]. cbn [flat_map fst snd app rev]. rewrite !find_map_app, IH. cbn [find_map].
    destruct (find_map c_end (rev (flat_map (fun p => [fst p; snd p]) r))); [reflexivity|]. cbn [or_else].
    destruct (c_end b), (c_end a); reflexivity. }
  rewrite E1, E2, E3, E4. destruct (c_end f); reflexivity.
Qed.

(** ** Destructuring *)

Lemma field_called_in l : NoDup (map fst l) -> forall n c, In (n, c) l -> field_called l n = Some c.
Proof.
  unfold field_called. induction l as [|[m d] l IH]; intros N n c H; [destruct H|]. cbn [map fst] in N. inversion N as [|? ? N1 N2]; subst.
  cbn [find fst]. destruct H as [[= -> ->]|H].
  - rewrite String.eqb_refl. reflexivity.
  - destruct (String.eqb m n) eqn:E; [|apply IH; assumption]. apply String.eqb_eq in E. subst.
    destruct N1. apply in_map_iff. exists (n, c). auto.
Qed.

Lemma destructure_holds s f cs : holds_fields s f cs -> destructure s f = Some cs.
Proof.
  destruct s as [names|n|], f as [l|l|]; cbn; try tauto.
  - intros [N F]. induction F as [|n c names cs H F IH]; [reflexivity|]. cbn [map all_some]. rewrite (field_called_in l N n c H), IH. reflexivity.
  - intros [-> ->]. rewrite Nat.eqb_refl. reflexivity.
  - intros ->. reflexivity.
Qed.

Lemma find_named {B} (vs : list (string * B)) x s : NoDup (map fst vs) -> In (x, s) vs ->
  find (fun p => String.eqb (fst p) x) vs = Some (x, s).
Proof.
  induction vs as [|[y t] vs IH]; intros N H; [destruct H|]. cbn [map fst] in N. inversion N as [|? ? N1 N2]; subst. cbn [find fst].
  destruct H as [[= -> ->]|H]; [rewrite String.eqb_refl; reflexivity|].
  destruct (String.eqb y x) eqn:E; [|apply IH; assumption]. apply String.eqb_eq in E. subst.
  destruct N1. apply in_map_iff. exists (x, s). auto.
Qed.

Lemma implement_value {A} d (body : list child -> A) v cs name : is_value d v cs name -> implement (t_data d) body v = Some (body cs).
Proof.
  unfold is_value, implement. destruct (t_data d) as [s|vs|], v as [f|x f]; try tauto.
  - intros [_ H]. rewrite (destructure_holds _ _ _ H). reflexivity.
  - intros (_ & N & s & H & Hf). rewrite (find_named vs x s N H), (destructure_holds _ _ _ Hf). reflexivity.
Qed.

Lemma value_name d v cs name : is_value d v cs name -> name_impl d v = name.
Proof. unfold is_value, name_impl. destruct (t_data d), v; try tauto; intros [-> _]; reflexivity. Qed.

(** ** The macro *)

Lemma get_tattrs_spec l : forall n b,
  match get_tattrs l n b with
  | None => In TBad l
  | Some (_, p) => ~ In TBad l /\ (p = true <-> b = true \/ In TPassthrough l)
  end.
Proof.
  induction l as [|a l IH]; intros n b; cbn [get_tattrs]; [split; [easy|cbn; tauto]|].
  destruct a as [|s|].
  - specialize (IH n true). destruct (get_tattrs l n true) as [[m p]|]; [|right; exact IH]. destruct IH as [H1 H2].
    split; [intros [|]; [discriminate|auto]|]. rewrite H2. cbn. intuition.
  - specialize (IH (Some s) b). destruct (get_tattrs l (Some s) b) as [[m p]|]; [|right; exact IH]. destruct IH as [H1 H2].
    split; [intros [|]; [discriminate|auto]|]. rewrite H2. cbn. intuition discriminate.
  - left. reflexivity.
Qed.

Lemma derive_rejects d : tree_derive d = TRejected <-> In TBad (t_attrs d) \/ t_data d = TUnion.
Proof.
  unfold tree_derive. pose proof (get_tattrs_spec (t_attrs d) None false) as H.
  destruct (get_tattrs (t_attrs d) None false) as [[m p]|]; [|tauto]. destruct H as [H1 H2].
  destruct (t_data d), p; split; intros H; try discriminate; auto; destruct H as [H|H]; try contradiction; discriminate.
Qed.

Lemma derive_child d : (exists g, tree_derive d = TChildImpl g) <-> tree_derive d <> TRejected /\ In TPassthrough (t_attrs d).
Proof.
  rewrite derive_rejects. unfold tree_derive. pose proof (get_tattrs_spec (t_attrs d) None false) as H.
  destruct (get_tattrs (t_attrs d) None false) as [[m p]|].
  2:{ split; [intros [g Hg]; discriminate|]. intros [K _]. destruct K. auto. }
  destruct H as [H1 H2]. assert (P : p = true <-> In TPassthrough (t_attrs d)).
  { rewrite H2. split; [intros [|]; [discriminate|assumption]|auto]. }
  rewrite <- P. clear H2 P. destruct (t_data d), p; split; intros H;
    repeat match goal with
    | H : exists _, _ |- _ => destruct H as [? H]; try discriminate
    | H : _ /\ _ |- _ => destruct H
    | H : false = true |- _ => discriminate
    end; try (exfalso; tauto); try (eexists; reflexivity); split; auto; intros [K|K]; auto; discriminate.
Qed.

Lemma derive_name_ignored d :
  tree_derive (mktdecl (t_name d) (filter (fun a => match a with TName _ => false | _ => true end) (t_attrs d)) (t_data d)) = tree_derive d.
Proof.
  destruct d as [n a dt]. cbn [t_name t_attrs t_data].
  assert (G : forall l m m' b, match get_tattrs (filter (fun a => match a with TName _ => false | _ => true end) l) m b, get_tattrs l m' b with
    | None, None => True | Some (_, p), Some (_, p') => p = p' | _, _ => False end).
  { induction l as [|[|s|] l IH]; intros m m' b; cbn [filter get_tattrs]; [reflexivity|apply IH|apply IH|exact I]. }
  specialize (G a None None false). unfold tree_derive. cbn [t_name t_attrs t_data].
  destruct (get_tattrs (filter _ a) None false) as [[x p]|], (get_tattrs a None false) as [[y q]|]; try tauto. subst q. reflexivity.
Qed.

Lemma tree_derive_eq d : tree_derive d = match get_tattrs (t_attrs d) None false with
  | None => TRejected
  | Some (_, p) => match t_data d with
    | TUnion => TRejected
    | _ => if p then TChildImpl (implement (t_data d) (fun fs =>
             mkchild (for_each_child_impl fs) (experimental_impl fs) (start_location_impl fs) (end_location_impl fs)))
           else TNodeImpl (fun v => implement (t_data d) (fun fs =>
             Node (name_impl d v) (experimental_impl fs) (start_location_impl fs) (end_location_impl fs) (for_each_child_impl fs)) v)
    end
  end.
Proof. unfold tree_derive. destruct (get_tattrs (t_attrs d) None false) as [[m [|]]|], (t_data d); reflexivity. Qed.

Lemma derive_node_value d g v cs name : tree_derive d = TNodeImpl g -> is_value d v cs name ->
  exists x, g v = Some x /\ n_name x = name /\ made_of cs (n_kids x) (n_exp x) (n_start x) (n_end x).
Proof.
  rewrite tree_derive_eq. intros H V. destruct (get_tattrs (t_attrs d) None false) as [[m p]|]; [|discriminate].
  assert (G : g = fun v => implement (t_data d) (fun fs =>
             Node (name_impl d v) (experimental_impl fs) (start_location_impl fs) (end_location_impl fs) (for_each_child_impl fs)) v).
  { destruct p; [destruct (t_data d); discriminate|]. assert (K : t_data d <> TUnion) by (intros K; rewrite K in H; discriminate).
    destruct (t_data d); [|  |congruence]; injection H as <-; reflexivity. }
  rewrite G, (implement_value d _ v cs name V), (value_name d v cs name V). eexists. split; [reflexivity|].
  split; [reflexivity|]. cbn [n_kids n_exp n_start n_end]. apply impl_made.
Qed.

Lemma derive_child_value d g v cs name : tree_derive d = TChildImpl g -> is_value d v cs name ->
  exists c, g v = Some c /\ made_of cs (c_nodes c) (c_exp c) (c_start c) (c_end c).
Proof.
  rewrite tree_derive_eq. intros H V. destruct (get_tattrs (t_attrs d) None false) as [[m p]|]; [|discriminate].
  assert (G : g = implement (t_data d) (fun fs =>
             mkchild (for_each_child_impl fs) (experimental_impl fs) (start_location_impl fs) (end_location_impl fs))).
  { destruct p; [|destruct (t_data d); discriminate]. destruct (t_data d); [injection H as <-; reflexivity|injection H as <-; reflexivity|discriminate]. }
  rewrite G, (implement_value d _ v cs name V). eexists. split; [reflexivity|]. apply impl_made.
Qed.

(** ** The law *)

Lemma first_of_none {A} (f : A -> option N) l r : first_of f l r -> (r = None <-> Forall (fun x => f x = None) l).
Proof.
  destruct r as [a|]; cbn; [|tauto]. intros (p & x & q & -> & H & _). split; [discriminate|].
  intros F. apply Forall_app in F as [_ F]. inversion F; congruence.
Qed.

Lemma last_of_none {A} (f : A -> option N) l r : last_of f l r -> (r = None <-> Forall (fun x => f x = None) l).
Proof.
  destruct r as [a|]; cbn; [|tauto]. intros (p & x & q & -> & H & _). split; [discriminate|].
  intros F. apply Forall_app in F as [_ F]. inversion F; congruence.
Qed.

Lemma made_law cs nodes ex st en : made_of cs nodes ex st en -> Forall lawful_child cs -> both_or_neither st en.
Proof.
  intros (_ & _ & H1 & H2) L. unfold both_or_neither. rewrite (first_of_none _ _ _ H1), (last_of_none _ _ _ H2).
  clear - L. induction L as [|c cs Lc L IH]; [split; constructor|]. rewrite !Forall_cons_iff, IH. unfold lawful_child, both_or_neither in Lc. tauto.
Qed.

Lemma existsb_concat {A} (f : A -> bool) l : existsb f (List.concat l) = existsb (existsb f) l.
Proof. induction l as [|x l IH]; [reflexivity|]. cbn. rewrite existsb_app, IH. reflexivity. Qed.

Lemma made_honest cs nodes ex st en : made_of cs nodes ex st en -> Forall honest_child cs -> honest nodes ex st en.
Proof.
  intros H L. apply made_canon in H. unfold canon in H. injection H as -> -> -> ->.
  assert (K : existsb c_exp cs = existsb n_exp (List.concat (map c_nodes cs)) /\
    find_map c_start cs = find_map n_start (List.concat (map c_nodes cs)) /\
    find_map c_end (rev cs) = find_map n_end (rev (List.concat (map c_nodes cs)))).
  { induction L as [|c cs (L1 & L2 & L3) L (K1 & K2 & K3)]; [repeat split|].
    cbn [map List.concat existsb find_map rev]. rewrite existsb_app, rev_app_distr, !find_map_app. rewrite K1, K2, K3, L1.
    rewrite (find_map_is _ _ _ L2), (find_map_rev_is _ _ _ L3). cbn [find_map]. split; [reflexivity|]. split; [reflexivity|].
    destruct (c_end c); reflexivity. }
  destruct K as (K1 & K2 & K3). split; [exact K1|]. rewrite K2, K3. split; [apply find_map_first|apply find_map_rev_last].
Qed.

Lemma made_lawful cs name nodes ex st en : made_of cs nodes ex st en -> Forall honest_child cs -> Forall lawful_child cs ->
  Forall (fun c => Forall lawful (c_nodes c)) cs -> lawful (Node name ex st en nodes).
Proof.
  intros M H L K. pose proof (made_honest _ _ _ _ _ M H) as Hh. constructor.
  - eapply made_law; eassumption.
  - intros -> ->. destruct Hh as [Hh _]. discriminate.
  - intros _. exact Hh.
  - destruct M as [-> _]. clear - K. induction K as [|c cs Kc K IH]; [constructor|]. cbn. apply Forall_app. auto.
Qed.

(** ** What is seen of parsed values *)

Lemma last_map_rev l : last_map l = find_map end_location (rev l).
Proof. induction l as [|x l IH]; [reflexivity|]. cbn [last_map rev]. rewrite find_map_app, IH. cbn. destruct (end_location x); reflexivity. Qed.

(** what the model of the other properties computes for a value *)
Definition right (v : val) (c : child) : Prop :=
  Forall2 sees (invoke_with_self v) (c_nodes c) /\ c_exp c = node_experimental v /\
  c_start c = start_location v /\ c_end c = end_location v /\
  lawful_child c /\ honest_child c /\ Forall lawful (c_nodes c).

Lemma right_canon l cs : Forall2 right l cs ->
  Forall2 sees (flat_map invoke_with_self l) (List.concat (map c_nodes cs)) /\
  existsb c_exp cs = existsb node_experimental l /\ find_map c_start cs = find_map start_location l /\
  find_map c_end (rev cs) = last_map l.
Proof.
  induction 1 as [|v c l cs (R1 & R2 & R3 & R4 & _) F (I1 & I2 & I3 & I4)]; [repeat split; constructor|].
  cbn [flat_map map List.concat existsb find_map rev last_map]. rewrite find_map_app. cbn [find_map].
  rewrite I2, I3, I4, R2, R3, R4. split; [apply Forall2_app; assumption|]. repeat split. destruct (end_location v); reflexivity.
Qed.

Lemma right_laws l cs : Forall2 right l cs ->
  Forall honest_child cs /\ Forall lawful_child cs /\ Forall (fun c => Forall lawful (c_nodes c)) cs.
Proof. induction 1 as [|v c l cs (_ & _ & _ & _ & R5 & R6 & R7) F (I1 & I2 & I3)]; repeat split; constructor; auto. Qed.

Lemma right_pass l cs c : Forall2 right l cs -> made_of cs (c_nodes c) (c_exp c) (c_start c) (c_end c) -> right (VPass l) c.
Proof.
  intros F M. pose proof (right_canon _ _ F) as (I1 & I2 & I3 & I4). pose proof (right_laws _ _ F) as (L1 & L2 & L3).
  pose proof M as M'. apply made_canon in M'. unfold canon in M'. injection M' as M1 M2 M3 M4.
  unfold right. rewrite end_location_pass. cbn [invoke_with_self node_experimental start_location].
  rewrite M1, M2, M3, M4. split; [exact I1|]. split; [exact I2|]. split; [exact I3|]. split; [exact I4|].
  split; [eapply made_law; eassumption|]. split; [eapply made_honest; eassumption|].
  clear - L3. induction L3 as [|x cs Kc K IH]; [constructor|]. cbn. apply Forall_app. auto.
Qed.

Lemma right_node l cs x : Forall2 right l cs -> made_of cs (n_kids x) (n_exp x) (n_start x) (n_end x) ->
  right (VNode (n_name x) l) (node_child x).
Proof.
  intros F M. pose proof (right_canon _ _ F) as (I1 & I2 & I3 & I4). pose proof (right_laws _ _ F) as (L1 & L2 & L3).
  pose proof M as M'. apply made_canon in M'. unfold canon in M'. injection M' as M1 M2 M3 M4.
  destruct x as [n ex st en kids]. cbn [n_name n_kids n_exp n_start n_end] in *.
  unfold right, node_child. rewrite end_location_node. cbn [invoke_with_self c_nodes c_exp c_start c_end node_experimental start_location].
  split.
  - constructor; [|constructor]. rewrite M2, M3, M4, I2, I3, I4, M1. rewrite <- end_location_node with (nm := n).
    apply (sees_one (VNode n l)). exact I1.
  - rewrite M2, M3, M4. cbn [n_exp n_start n_end]. split; [exact I2|]. split; [exact I3|]. split; [exact I4|].
    split; [rewrite <- M3, <- M4; eapply made_law; eassumption|]. split.
    + unfold honest_child, honest. cbn. rewrite orb_false_r. split; [reflexivity|]. split.
      * destruct (find_map c_start cs) as [a|] eqn:E; [exists [], (Node n (existsb c_exp cs) (Some a) (find_map c_end (rev cs)) kids), []; auto|repeat constructor].
      * destruct (find_map c_end (rev cs)) as [a|] eqn:E; [exists [], (Node n (existsb c_exp cs) (find_map c_start cs) (Some a) kids), []; auto|repeat constructor].
    + constructor; [|constructor]. rewrite <- M2, <- M3, <- M4. eapply made_lawful; eassumption.
Qed.

Lemma right_leaf v n ex a b : children v = [] -> invoke_with_self v = [v] -> node_name v = n -> node_experimental v = ex ->
  start_location v = Some a -> end_location v = Some b -> right v (node_child (Node n ex (Some a) (Some b) [])).
Proof.
  intros H1 H2 H3 H4 H5 H6. unfold right, node_child. cbn [c_nodes c_exp c_start c_end n_exp n_start n_end]. rewrite H2.
  split; [constructor; [|constructor]; rewrite <- H3, <- H4, <- H5, <- H6; constructor; rewrite H1; constructor|].
  split; [auto|]. split; [auto|]. split; [auto|].
  split; [unfold lawful_child, both_or_neither; cbn; split; discriminate|].
  split; [unfold honest_child, honest; cbn; rewrite orb_false_r; split; [reflexivity|]; split; exists [], (Node n ex (Some a) (Some b) []), []; auto|].
  apply Forall_cons; [|apply Forall_nil]. apply lawful_node; [split; discriminate|intros _ _; discriminate|congruence|apply Forall_nil].
Qed.

Lemma answers_right v : forall c, answers v c -> right v c.
Proof.
  assert (HL : forall l, Forall (fun v => forall c, answers v c -> right v c) l -> forall cs, Forall2 answers l cs -> Forall2 right l cs).
  { induction 1 as [|x l Hx F IH]; intros cs G; inversion G; subst; constructor; auto. }
  induction v as [t|n sp|n l IH|l IH] using val_ind'; intros c A.
  - inversion A; subst; apply right_leaf; reflexivity.
  - inversion A; subst. apply right_leaf; reflexivity.
  - inversion A as [| | |d v name l' cs g x F V D G|vf l' f rest Af F| | | | |]; subst.
    + destruct (derive_node_value d g v cs n D V) as (x' & E & <- & M). assert (x' = x) by congruence. subst x'.
      eapply right_node; [apply HL; eassumption|exact M].
    + change (right (VNode (n_name (separated_node f rest)) [vf; VPass l']) (node_child (separated_node f rest))).
      inversion IH as [|? ? Hf IH']; subst. inversion IH' as [|? ? Hp _]; subst. clear IH IH'.
      set (tp := fun p : child * child => tuple_child [fst p; snd p]).
      apply (right_node _ [f; slice_child (map tp rest)]).
      * constructor; [auto|]. constructor; [|constructor]. apply Hp, an_slice. clear - F.
        induction F as [|v p l rest (a & b & -> & Ha & Hb) F IH]; [constructor|]. cbn [map]. constructor; [|exact IH].
        apply an_tuple. repeat constructor; assumption.
      * pose proof (separated_made f rest) as M. cbv zeta in M. apply made_canon in M. apply made_canon. rewrite M. clear.
        unfold canon. cbn [map existsb find_map List.concat rev app slice_child c_nodes c_exp c_start c_end].
        rewrite app_nil_r, orb_false_r, find_map_app. cbn [find_map].
        assert (K : canon (inter rest) = (flat_map c_nodes (map tp rest), existsb c_exp (map tp rest), find_map c_start (map tp rest), find_map c_end (rev (map tp rest)))).
        { unfold canon, inter. induction rest as [|[a b] r IH]; [reflexivity|]. injection IH as E1 E2 E3 E4.
          cbn [map flat_map existsb find_map rev fst snd app tp tuple_child c_nodes c_exp c_start c_end List.concat fold_left first_return].
          rewrite !find_map_app, E1, E2, E3, E4. cbn [find_map rev app c_end]. rewrite !app_nil_r.
          rewrite <- app_assoc. try change (c_end (tp (a, b))) with (or_else (c_end b) (or_else (c_end a) None)). destruct (find_map c_end (rev (map tp r))), (c_exp a), (c_exp b), (c_start a), (c_start b), (c_end a), (c_end b); reflexivity. }
        unfold canon in K. injection K as E1 E2 E3 E4. rewrite E1, E2, E3, E4.
        destruct (c_start f), (c_end f); try reflexivity;
        destruct (find_map c_start (map tp rest)), (find_map c_end (rev (map tp rest))); reflexivity.
  - inversion A as [| | | | |l' cs F|l' cs F|v c' Av| |d v name l' cs g x F V D G]; subst.
    + eapply right_pass; [apply HL; eassumption|apply tuple_made].
    + eapply right_pass; [apply HL; eassumption|apply slice_made].
    + inversion IH; subst. apply (right_pass [v] [c']); [auto|]. apply (slice_made [c']).
    + apply (right_pass [] []); [constructor|]. apply (slice_made []).
    + destruct (derive_child_value d g v cs name D V) as (x' & E & M). assert (x' = c) by congruence. subst x'.
      eapply right_pass; [apply HL; eassumption|exact M].
Qed.

Lemma answers_exist v : exists c, answers v c.
Proof.
  assert (HL : forall l, Forall (fun v => exists c, answers v c) l -> exists cs, Forall2 answers l cs).
  { induction 1 as [|x l [c Hc] F (cs & IH)]; [exists []; constructor|exists (c :: cs); constructor; assumption]. }
  induction v as [t|n sp|n l IH|l IH] using val_ind'.
  - eexists. apply an_token.
  - eexists. apply an_zoi.
  - destruct (HL l IH) as (cs & F).
    set (d := mktdecl n [] (TStruct (SUnnamed (List.length cs)))).
    assert (V : is_value d (SVal (FUnnamed cs)) cs n) by (cbn; auto).
    destruct (derive_node_value d _ _ cs n eq_refl V) as (x & G & _).
    eexists. eapply an_derived; [exact F|exact V|reflexivity|exact G].
  - destruct (HL l IH) as (cs & F). eexists. apply an_slice, F.
Qed.

Lemma node_ind' (P : node -> Prop) (H : forall n ex st en ks, Forall P ks -> P (Node n ex st en ks)) : forall x, P x.
Proof.
  fix IH 1. intros [n ex st en ks]. apply H. induction ks as [|t ks IHk]; constructor; [apply IH|exact IHk].
Qed.

Lemma sees_unique x : forall v y, sees v x -> sees v y -> x = y.
Proof.
  induction x as [n ex st en ks IH] using node_ind'. intros v y A B. inversion A as [v' ks' F]; subst. inversion B as [v' ks' G]; subst.
  f_equal. clear A B. revert ks' G. induction F as [|c k cs ks H F IHF]; intros ks' G; inversion G; subst; [reflexivity|].
  inversion IH as [|? ? I1 I2]; subst. f_equal; [eapply I1; eassumption|]. apply IHF; assumption.
Qed.

Lemma answers_unique v c c' : answers v c -> answers v c' -> c = c'.
Proof.
  intros A A'. apply answers_right in A as (R1 & R2 & R3 & R4 & _), A' as (S1 & S2 & S3 & S4 & _).
  destruct c as [ns ex st en], c' as [ns' ex' st' en']. cbn in *. f_equal; try congruence.
  clear - R1 S1. revert ns' S1. induction R1 as [|x y l l' H F IH]; intros ns' S1; inversion S1; subst; [reflexivity|].
  f_equal; [eapply sees_unique; eassumption|]. apply IH; assumption.
Qed.

Lemma construct_answers d td v tv l cs : tree_decl d td -> d_tree d <> TKSpanLeaf -> Forall2 answers l cs ->
  is_value td tv cs (node_name_of d v) ->
  exists c, answers (construct d v (VPass l)) c /\
    match tree_derive td with
    | TNodeImpl g => exists x, g tv = Some x /\ c = node_child x
    | TChildImpl g => g tv = Some c
    | TRejected => False
    end.
Proof.
  intros (_ & Ea & Ed) Hk F V.
  assert (NR : tree_derive td <> TRejected).
  { rewrite derive_rejects, Ea. intros [K|K]; [destruct (d_tree d); cbn in K; intuition discriminate|].
    rewrite K in Ed. destruct (d_data d); exact Ed. }
  pose proof (derive_child td) as DC. rewrite Ea in DC. unfold construct. destruct (d_tree d); [| |congruence].
  - destruct (tree_derive td) as [|g|g] eqn:E; [congruence| |].
    + destruct (derive_node_value td g tv cs _ E V) as (x & G & _). exists (node_child x). split; [|eauto].
      eapply an_derived; [exact F|exact V|exact E|exact G].
    + destruct (proj1 DC (ex_intro _ g eq_refl)) as [_ []].
  - destruct (proj2 DC (conj NR (or_introl eq_refl))) as (g & E). rewrite E.
    destruct (derive_child_value td g tv cs _ E V) as (c & G & _). exists c. split; [|exact G].
    eapply an_pass; [exact F|exact V|exact E|exact G].
Qed.
