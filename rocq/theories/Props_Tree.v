(** Props_Tree.v -- C72: TreeNode, TreeNodeChild and derive(TreeNode).
    Vocabulary: SpecTree.v. *)
From Verif Require Import Base Span Utf8 Selmaho Classify Lex SpecLex Cst CstRules CstApi CstMain SpecCst Derive CstDecls TreeDerive SpecTree.
From Verif Require Import CstTree TreeThms Props_Cst.
Local Open Scope string_scope.
Local Open Scope list_scope.

(** C72 Deriving TreeNode for a struct or enum gives nodes named after the type
    (and variant), whose children are those of the fields in the order of the
    declaration; they are experimental when a field is, begin where the first
    field that is not empty begins and end where the last one ends ... *)
Theorem C72_node d g v cs name : tree_derive d = TNodeImpl g -> is_value d v cs name ->
  exists x, g v = Some x /\ n_name x = name /\ made_of cs (n_kids x) (n_exp x) (n_start x) (n_end x).
Proof. exact (derive_node_value d g v cs name). Qed.
Print Assumptions C72_node.

(** ... with [passthrough_child] it gives no node but hands on those of the fields ... *)
Theorem C72_passthrough d g v cs name : tree_derive d = TChildImpl g -> is_value d v cs name ->
  exists c, g v = Some c /\ made_of cs (c_nodes c) (c_exp c) (c_start c) (c_end c).
Proof. exact (derive_child_value d g v cs name). Qed.
Print Assumptions C72_passthrough.

(** ... as tuples, slices and options do; Separated is a node with the items and
    separators in turn. *)
Theorem C72_containers :
  (forall l, let c := tuple_child l in made_of l (c_nodes c) (c_exp c) (c_start c) (c_end c)) /\
  (forall l, let c := slice_child l in made_of l (c_nodes c) (c_exp c) (c_start c) (c_end c)) /\
  (forall o, let c := option_child o in
     made_of (match o with Some x => [x] | None => [] end) (c_nodes c) (c_exp c) (c_start c) (c_end c)) /\
  (forall first rest, let x := separated_node first rest in n_name x = "Separated" /\
     made_of (first :: flat_map (fun p => [fst p; snd p]) rest) (n_kids x) (n_exp x) (n_start x) (n_end x)).
Proof.
  split; [exact tuple_made|]. split; [exact slice_made|]. split; [intros o; apply slice_made|].
  intros f rest. split; [reflexivity|]. apply separated_made.
Qed.
Print Assumptions C72_containers.

(** The macro refuses unions and unknown attributes, nothing else ... *)
Theorem C72_rejects d : tree_derive d = TRejected <-> In TBad (t_attrs d) \/ t_data d = TUnion.
Proof. exact (derive_rejects d). Qed.
Print Assumptions C72_rejects.

Theorem C72_kind d : (exists g, tree_derive d = TChildImpl g) <-> tree_derive d <> TRejected /\ In TPassthrough (t_attrs d).
Proof. exact (derive_child d). Qed.
Print Assumptions C72_kind.

(** ... and, a finding, the attribute [name = ".."] it accepts has no effect at all. *)
Theorem C72_name_ignored n attrs dt :
  tree_derive (mktdecl n (filter (fun a => match a with TName _ => false | _ => true end) attrs) dt) = tree_derive (mktdecl n attrs dt).
Proof. exact (derive_name_ignored (mktdecl n attrs dt)). Qed.
Print Assumptions C72_name_ignored.

(** The law of the trait's documentation is kept: if the fields have both
    locations or neither, so has what is derived or built from them.  And a
    derived node says of its children what they say themselves. *)
Theorem C72_law cs nodes ex st en : made_of cs nodes ex st en -> Forall lawful_child cs -> both_or_neither st en.
Proof. exact (made_law cs nodes ex st en). Qed.
Print Assumptions C72_law.

Theorem C72_honest cs nodes ex st en : made_of cs nodes ex st en -> Forall honest_child cs -> honest nodes ex st en.
Proof. exact (made_honest cs nodes ex st en). Qed.
Print Assumptions C72_honest.

(** What the impls answer for a value of the parser is, at every depth, what the
    other properties say is seen of it: there is one answer, it is that, and
    everything seen obeys the law. *)
Theorem C72_answers v : exists! c, answers v c.
Proof. destruct (answers_exist v) as (c & A). exists c. split; [exact A|]. intros c' A'. exact (answers_unique v c c' A A'). Qed.
Print Assumptions C72_answers.

Theorem C72_seen v c : answers v c ->
  Forall2 sees (invoke_with_self v) (c_nodes c) /\ c_exp c = node_experimental v /\
  c_start c = start_location v /\ c_end c = end_location v /\ lawful_child c /\ Forall lawful (c_nodes c).
Proof. intros A. apply answers_right in A as (R1 & R2 & R3 & R4 & R5 & _ & R7). auto 7. Qed.
Print Assumptions C72_seen.

(** Values built by a derived parser (C69) from fields with such answers answer
    through the derived TreeNode impl of the same declaration. *)
Theorem C72_construct d td v tv l cs : tree_decl d td -> d_tree d <> TKSpanLeaf -> Forall2 answers l cs ->
  is_value td tv cs (node_name_of d v) ->
  exists c, answers (construct d v (VPass l)) c /\
    match tree_derive td with
    | TNodeImpl g => exists x, g tv = Some x /\ c = node_child x
    | TChildImpl g => g tv = Some c
    | TRejected => False
    end.
Proof. exact (construct_answers d td v tv l cs). Qed.
Print Assumptions C72_construct.

(** ** Examples *)

Definition mi := mktok false S_Koha (mkspan 0 2).
Definition xoi := mktok true S_Bai (mkspan 3 6).
Definition klama := mktok false S_Gismu (mkspan 7 12).
Definition none := slice_child [].
Definition leaf t := node_child (token_node t).

(** struct Bridi { first, empty, selbri }, its value given in another order *)
Definition bridi : tdecl := mktdecl "Bridi" [TName "Other"] (TStruct (SNamed ["first"; "empty"; "selbri"])).
Definition bridi_value : tvalue := SVal (FNamed [("selbri", tuple_child [leaf xoi; leaf klama; none]); ("empty", none); ("first", leaf mi)]).

Example C72_bridi : match tree_derive bridi with TNodeImpl g => g bridi_value | _ => None end =
  Some (Node "Bridi" true (Some 0) (Some 12) [token_node mi; token_node xoi; token_node klama]).
Proof. reflexivity. Qed.

Example C72_bridi_value : is_value bridi bridi_value [leaf mi; none; tuple_child [leaf xoi; leaf klama; none]] "Bridi".
Proof.
  split; [reflexivity|]. split.
  - repeat (apply NoDup_cons; [cbn; intuition discriminate|]). apply NoDup_nil.
  - repeat (apply Forall2_cons; [cbn; auto|]). apply Forall2_nil.
Qed.

Definition either : tdecl := mktdecl "EitherOrBoth" [TPassthrough] (TEnum [("Right", SUnnamed 1); ("Both", SUnnamed 2); ("Left", SUnnamed 1)]).
Example C72_either : match tree_derive either with TChildImpl g => g (EVal "Both" (FUnnamed [leaf mi; leaf klama])) | _ => None end =
  Some (mkchild [token_node mi; token_node klama] false (Some 0) (Some 12)).
Proof. reflexivity. Qed.

(** the same as an enum of nodes *)
Example C72_enum : match tree_derive (mktdecl "E" [] (t_data either)) with TNodeImpl g => g (EVal "Left" (FUnnamed [leaf klama])) | _ => None end =
  Some (Node "E::Left" false (Some 7) (Some 12) [token_node klama]).
Proof. reflexivity. Qed.

Example C72_union : tree_derive (mktdecl "U" [] TUnion) = TRejected.
Proof. reflexivity. Qed.

(** a declaration of the grammar *)
Example C72_tree_decl : tree_decl d_EitherOrBoth either /\
  exists vs l, construct d_EitherOrBoth (Some vs) (VPass [VTok mi; VTok klama]) = VPass l /\
    is_value either (EVal "Both" (FUnnamed [leaf mi; leaf klama])) [leaf mi; leaf klama] (node_name_of d_EitherOrBoth (Some vs)).
Proof.
  split; [repeat split; repeat constructor|].
  exists (mkvariant "Both" [] (Unnamed [])), [VTok mi; VTok klama]. split; [reflexivity|].
  split; [reflexivity|]. split; [repeat (apply NoDup_cons; [cbn; intuition discriminate|]); apply NoDup_nil|]. exists (SUnnamed 2). split; [cbn; auto|split; reflexivity].
Qed.

(** the tree of "mi klama" *)
Example C72_example : exists root c x, cst_parse (lexed "mi klama") = Ret (inl root) /\ answers root c /\ c_nodes c = [x] /\
  sees root x /\ lawful x /\ n_name x = "Text" /\ n_start x = Some 0 /\ n_end x = Some 8.
Proof.
  destruct (cst_parse_run (lexed "mi klama")) as ([root|e] & H); [|vm_compute in H; discriminate].
  destruct (answers_exist root) as (c & A). destruct (C72_seen root c A) as (R1 & R2 & R3 & R4 & R5 & R6).
  assert (E : invoke_with_self root = [root]) by (vm_compute in H; injection H as <-; reflexivity).
  rewrite E in R1. inversion R1 as [|? x ? ? S T]; subst. inversion T; subst. exists root, c, x.
  assert (K : c_nodes c = [x]) by congruence. rewrite K in R6. inversion R6; subst.
  split; [exact H|]. split; [exact A|]. split; [exact K|]. split; [exact S|]. split; [assumption|].
  inversion S; subst. cbn [n_name n_start n_end]. vm_compute in H. injection H as <-. split; [reflexivity|split; reflexivity].
Qed.
