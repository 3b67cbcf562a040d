(** Props_Derive.v -- C69: what a declaration with [#[derive(Parse)]] means; C70: the parser
    the grammar's declarations define.  Vocabulary: Derive.v, CstDecls.v, SpecDerive.v. *)
From Verif Require Import Base Span Selmaho Lex SpecLex Cst CstRules CstApi Derive CstDecls SpecDerive SpecCst CstDerive DeriveThms DeriveMore Props_Cst.
From Coq Require Import Lia Arith.
Local Open Scope string_scope.
Local Open Scope list_scope.
Import Datatypes.

Section C69.
(** Whatever the parsers of the fields' types, of the [with] functions and of the
    post-conditions are. *)
Context (env : ty -> parser) (withs : string -> parser -> parser)
        (container_with : string -> parser) (conds : string -> val -> bool).
Notation derives d p := (derive_parse env withs container_with conds d = Parser p).

(** A struct reads its fields in their order, each from where the last one stopped and where
    none of its [not]s can be read; it takes something if it is [must_consume]; then its post-conditions
    hold and none of its [not_after]s can be read next.  Its value is that of the fields. *)
Theorem C69_struct d p fs :
  derives d p -> d_data d = DStruct fs -> (forall w, ~ In (AWith w) (d_attrs d)) ->
  forall i r v, p i = COk r v <->
    exists vs, reads_all env withs (fields_in fs) i r vs /\ v = value_of (d_tree d) (d_name d) vs /\
               (In ANonEmpty (d_attrs d) -> List.length r <> List.length i) /\
               container_holds env conds (d_attrs d) r v.
Proof. apply struct_meaning. Qed.

(** An enum is the first of its variants, each read as the struct it looks like, that can be read:
    all before it do not match. *)
Theorem C69_enum d p vs :
  derives d p -> d_data d = DEnum vs -> d_tree d <> TKSpanLeaf ->
  (forall w, ~ In (AWith w) (d_attrs d)) -> ~ In ALongest (d_attrs d) ->
  forall i r v, p i = COk r v <->
    (exists pre x post, vs = pre ++ x :: post /\
       Forall (fun y => exists q, derives (as_struct d y) q /\ rejects q i) pre /\
       exists q, derives (as_struct d x) q /\ q i = COk r v) /\
    (In ANonEmpty (d_attrs d) -> List.length r <> List.length i) /\
    container_holds env conds (d_attrs d) r v.
Proof. apply enum_meaning. Qed.

(** With [longest], it is the first of those that read the most: what comes before it reads less or
    does not match, what comes after reads no more or does not match; [must_consume] asks nothing. *)
Theorem C69_longest d p vs :
  derives d p -> d_data d = DEnum vs -> d_tree d <> TKSpanLeaf ->
  (forall w, ~ In (AWith w) (d_attrs d)) -> In ALongest (d_attrs d) ->
  forall i r v, p i = COk r v <->
    (exists pre x post q, vs = pre ++ x :: post /\ derives (as_struct d x) q /\ q i = COk r v /\
       Forall (fun y => exists q', derives (as_struct d y) q' /\ beaten lt r i q') pre /\
       Forall (fun y => exists q', derives (as_struct d y) q' /\ beaten le r i q') post) /\
    container_holds env conds (d_attrs d) r v.
Proof. apply longest_meaning. Qed.

(** A [cut] field that does not match, once the fields before it were read and its [not]s hold,
    is fatal to its struct: the failure is the field's error. *)
Theorem C69_cut d p fs pre f post :
  derives d p -> d_data d = DStruct fs -> (forall w, ~ In (AWith w) (d_attrs d)) ->
  fields_in fs = pre ++ f :: post -> In ACut (f_attrs f) ->
  forall i j vs q e, reads_all env withs pre i j vs -> nots_hold env f j -> field_parser env withs f q ->
    q j = CErr e -> p i = CFail e.
Proof. apply cut_struct. Qed.

(** and to the enum whose variant it is in, unless an earlier variant matches: no later variant is tried. *)
Theorem C69_cut_enum d p vs pre x post q :
  derives d p -> d_data d = DEnum vs -> d_tree d <> TKSpanLeaf ->
  (forall w, ~ In (AWith w) (d_attrs d)) -> ~ In ALongest (d_attrs d) ->
  vs = pre ++ x :: post -> derives (as_struct d x) q ->
  forall i e, Forall (fun y => exists q, derives (as_struct d y) q /\ rejects q i) pre ->
    q i = CFail e -> p i = CFail e.
Proof. apply cut_enum. Qed.

(** Nothing else is fatal: a struct fails so exactly when a field does (its [not]s, its parser, or because it
    is [cut]) after the fields before it were read, or when trying a [not_after] does once all else is fine. *)
Theorem C69_failure_struct d p fs :
  derives d p -> d_data d = DStruct fs -> (forall w, ~ In (AWith w) (d_attrs d)) ->
  forall i e, p i = CFail e <->
    (exists pre f post j vs, fields_in fs = pre ++ f :: post /\ reads_all env withs pre i j vs /\ field_fails env withs f j e) \/
    (exists r vs, reads_all env withs (fields_in fs) i r vs /\ (In ANonEmpty (d_attrs d) -> List.length r <> List.length i) /\
       (forall c, In (APostCond c) (d_attrs d) -> conds c (value_of (d_tree d) (d_name d) vs) = true) /\
       try_fails env (not_afters_in (d_attrs d)) r e).
Proof. apply struct_failure. Qed.

(** An enum fails fatally exactly when a variant does and all before it do not match; *)
Theorem C69_failure_enum d p vs :
  derives d p -> d_data d = DEnum vs -> d_tree d <> TKSpanLeaf ->
  (forall w, ~ In (AWith w) (d_attrs d)) -> ~ In ALongest (d_attrs d) -> not_afters_in (d_attrs d) = [] ->
  forall i e, p i = CFail e <->
    exists pre x post q, vs = pre ++ x :: post /\ derives (as_struct d x) q /\
      Forall (fun y => exists q, derives (as_struct d y) q /\ rejects q i) pre /\ q i = CFail e.
Proof. apply enum_failure. Qed.

(** with [longest], when any variant does; the error is that of the first one. *)
Theorem C69_failure_longest d p vs :
  derives d p -> d_data d = DEnum vs -> d_tree d <> TKSpanLeaf ->
  (forall w, ~ In (AWith w) (d_attrs d)) -> In ALongest (d_attrs d) -> not_afters_in (d_attrs d) = [] ->
  forall i e, p i = CFail e <->
    exists pre x post q, vs = pre ++ x :: post /\ derives (as_struct d x) q /\
      Forall (fun y => exists q, derives (as_struct d y) q /\ not_fatal q i) pre /\ q i = CFail e.
Proof. apply longest_failure. Qed.

(** Exactly these declarations are accepted. *)
Theorem C69_accepted d : (exists p, derives d p) <->
  container_fine (d_attrs d) /\ ((exists w, In (AWith w) (d_attrs d)) \/ data_fine d).
Proof. apply DeriveMore.accepted. Qed.

(** If the parsers it is made of take a prefix of the input and account for all of it in their
    values, so does the derived parser. *)
Theorem C69_tokens d p :
  derives d p -> (d_tree d = TKSpanLeaf -> forall vs, d_data d <> DEnum vs) ->
  (forall t, takes_prefix (env t)) -> (forall w q, takes_prefix q -> takes_prefix (withs w q)) ->
  (forall w, takes_prefix (container_with w)) ->
  takes_prefix p.
Proof. apply takes_prefix_derived. Qed.
End C69.
Print Assumptions C69_struct.
Print Assumptions C69_enum.
Print Assumptions C69_longest.
Print Assumptions C69_cut.
Print Assumptions C69_cut_enum.
Print Assumptions C69_failure_struct.
Print Assumptions C69_failure_enum.
Print Assumptions C69_failure_longest.
Print Assumptions C69_accepted.
Print Assumptions C69_tokens.

(** ** The grammar's declarations *)

Fixpoint distinct (l : list string) : bool :=
  match l with [] => true | x :: l' => negb (existsb (String.eqb x) l') && distinct l' end.
Lemma decl_names_distinct : NoDup (map d_name decls).
Proof.
  assert (D : forall l, distinct l = true -> NoDup l).
  { induction l as [|x l IH]; cbn [distinct]; intros H; constructor; apply andb_prop in H as [H1 H2]; [|apply IH, H2].
    intros Hin. apply Bool.negb_true_iff in H1. assert (existsb (String.eqb x) l = true); [|congruence].
    apply existsb_exists. exists x. split; [exact Hin|apply String.eqb_refl]. }
  apply D. vm_compute. reflexivity.
Qed.

(** However the parsers of the types call each other, if the parser of each type reached from [Root] is
    what its impl (derived from its declaration, or written by hand) makes of the others, then parsing is
    the function [cst_parse] of the other properties: same tree, same error, on every input. *)
Theorem C70_unique env : implements env -> forall toks, parse_root env toks = cst_parse toks.
Proof. apply solution_parse. Qed.
Print Assumptions C70_unique.

(** Such parsers exist. *)
Theorem C70_exists : exists env, implements env.
Proof. exists the_env. apply the_env_implements. Qed.
Print Assumptions C70_exists.

(** So the declarations decide one parser, and it always returns. *)
Theorem C70_returns env : implements env -> forall toks, exists result, parse_root env toks = Ret result.
Proof. intros H toks. rewrite (C70_unique env H). apply C35_total. Qed.
Print Assumptions C70_returns.

(** The parser of each declared type is the one derived from its declaration, at its type arguments: C69 says what it does. *)
Theorem C70_types env d args : implements env -> In d decls -> used (TyName (d_name d) args) ->
  exists d' p, instantiate d args = Some d' /\ derive_parse env crate_with crate_container_with crate_cond d' = Parser p /\
    forall i, env (TyName (d_name d) args) i = p i.
Proof.
  intros H Hd Hu. destruct (H _ Hu) as (p & E & Hp).
  assert (B : forallb (fun d => negb (String.eqb (d_name d) "Token") && negb (String.eqb (d_name d) "Span") && negb (String.eqb (d_name d) "Bu") &&
      negb (String.eqb (d_name d) "LohuSumti") && match assoc (d_name d) token_types with None => true | _ => false end &&
      match assoc (d_name d) aliases with None => true | _ => false end)%bool decls = true) by (vm_compute; reflexivity).
  rewrite forallb_forall in B. specialize (B d Hd).
  repeat match type of B with (_ && _)%bool = true => let X := fresh in apply andb_prop in B as [B X] end.
  assert (F : find_decl (d_name d) = Some d).
  { assert (N : forall l, NoDup (map d_name l) -> In d l -> find (fun x => String.eqb (d_name d) (d_name x)) l = Some d).
    { clear. induction l as [|x l IH]; intros ND Hin; [destruct Hin|]. cbn [find]. destruct Hin as [->|Hin]; [rewrite String.eqb_refl; reflexivity|].
      inversion ND as [|? ? N1 N2]; subst. destruct (String.eqb_spec (d_name d) (d_name x)) as [E|_]; [|apply IH; assumption].
      exfalso. apply N1. rewrite <- E. apply in_map. exact Hin. }
    apply N; [|exact Hd]. pose proof decl_names_distinct as Q. exact Q. }
  cbn [impl] in E. rewrite F in E.
  repeat match goal with X : negb ?b = true |- _ => apply Bool.negb_true_iff in X; rewrite X in E; clear X end.
  destruct (assoc (d_name d) token_types); [discriminate|]. destruct (assoc (d_name d) aliases); [discriminate|].
  destruct (instantiate d args) as [d'|]; [|discriminate]. eauto.
Qed.
Print Assumptions C70_types.

(** Every declaration of the grammar is one the macro accepts, and none has [longest], or [with] on the container. *)
Theorem C70_declarations : Forall (fun d => container_fine (d_attrs d) /\ data_fine d /\ ~ In ALongest (d_attrs d) /\ forall w, ~ In (AWith w) (d_attrs d)) decls.
Proof.
  assert (K : forall d, In d decls -> (exists p, derive_parse (fun _ _ => COut) crate_with crate_container_with crate_cond d = Parser p) /\
     forallb (fun a => match a with ALongest | AWith _ => false | _ => true end) (d_attrs d) = true).
  { assert (B : forallb (fun d => match derive_parse (fun _ _ => COut) crate_with crate_container_with crate_cond d with Parser _ => true | _ => false end &&
        forallb (fun a => match a with ALongest | AWith _ => false | _ => true end) (d_attrs d))%bool decls = true) by (vm_compute; reflexivity).
    intros d Hd. rewrite forallb_forall in B. specialize (B d Hd). apply andb_prop in B as [B1 B2]. split; [|exact B2].
    destruct (derive_parse _ _ _ _ d) as [| |p]; try discriminate. eauto. }
  apply Forall_forall. intros d Hd. destruct (K d Hd) as [A B]. rewrite forallb_forall in B.
  assert (W : forall w, ~ In (AWith w) (d_attrs d)) by (intros w Hw; specialize (B _ Hw); discriminate).
  apply C69_accepted in A as [A [(w & C)|C]]; [exfalso; exact (W w C)|].
  split; [exact A|]. split; [exact C|]. split; [|exact W]. intros L. specialize (B _ L). discriminate.
Qed.
Print Assumptions C70_declarations.

(** ** Examples *)

(** a made-up grammar over single tokens: mi, cu, klama, nothing *)
Definition ex_env (t : ty) : parser :=
  match t with
  | TyName "Mi" _ => p_sel S_Koha
  | TyName "Cu" _ => p_sel S_Cu
  | TyName "Klama" _ => p_sel S_Gismu
  | TyName "Nothing" _ => fun i => COk i (VPass [])
  | _ => fun i => CErr (mkerr i (Nom KEof))
  end.
Notation ex d := (derive_parse ex_env crate_with crate_container_with (fun _ _ => true) d).
Notation run d i := (match ex d with Parser p => p i | _ => COut end).
Definition tk (s : Selmaho) : token := mktok false s (mkspan 0 1).
Definition mi := tk S_Koha. Definition cu := tk S_Cu. Definition klama := tk S_Gismu.
Definition at_ (n : string) (l : list pattr) : field := mkfield (nm n) l.

(** struct Bridi(Mi, #[parse(not(Klama))] Cu, #[parse(with = "many1")] &[Klama]) *)
Definition bridi : decl := mkdecl "Bridi" [] TKNode [ANotAfter (nm "Cu")]
  (DStruct (Unnamed [at_ "Mi" []; at_ "Cu" [ANot (nm "Klama")]; mkfield (TyRef (TySlice (nm "Klama"))) [AWith "many1"]])).
Example C69_bridi : run bridi [mi; cu; klama; klama; mi] = COk [mi] (VNode "Bridi" [VTok mi; VTok cu; VPass [VTok klama; VTok klama]]) /\
  run bridi [mi; cu; klama; cu] = CErr (mkerr [cu] (Nom KNot)) /\ (exists e, run bridi [mi; klama] = CErr e).
Proof. split; [reflexivity|split; [reflexivity|eexists; reflexivity]]. Qed.
Example C69_bridi_reads : reads_all ex_env crate_with
  [at_ "Mi" []; at_ "Cu" [ANot (nm "Klama")]; mkfield (TyRef (TySlice (nm "Klama"))) [AWith "many1"]]
  [mi; cu; klama; klama; mi] [mi] [VTok mi; VTok cu; VPass [VTok klama; VTok klama]].
Proof.
  econstructor; [|econstructor; [|econstructor; [|constructor]]].
  - split; [intros t []|]. exists (ex_env (nm "Mi")). split; [apply FPlain; intros w []|reflexivity].
  - split; [intros t [E|[]]; injection E as <-; eexists; reflexivity|].
    exists (ex_env (nm "Cu")). split; [apply FPlain; intros w [E|[]]; discriminate|reflexivity].
  - split; [intros t [E|[]]; discriminate|].
    exists (crate_with "many1" (ex_env (nm "Klama"))). split; [apply (FWith _ _ (mkfield (TyRef (TySlice (nm "Klama"))) [AWith "many1"])); left; reflexivity|reflexivity].
Qed.

(** enum E { Short(Mi), Long(Mi, Cu), Other(Mi, Klama) }: the first, or with [longest] the longest;
    with [cut] on Cu, Other is not reached *)
Definition e (attrs : list pattr) (cut : list pattr) : decl := mkdecl "E" [] TKNode attrs
  (DEnum [mkvariant "Long" [] (Unnamed [at_ "Mi" []; at_ "Cu" cut]); mkvariant "Short" [] (Unnamed [at_ "Mi" []]);
          mkvariant "Other" [] (Unnamed [at_ "Mi" []; at_ "Klama" []])]).
Example C69_first : run (e [] []) [mi; klama] = COk [klama] (VNode "E::Short" [VTok mi]).
Proof. reflexivity. Qed.
Example C69_most : run (e [ALongest] []) [mi; klama] = COk [] (VNode "E::Other" [VTok mi; VTok klama]).
Proof. reflexivity. Qed.
Example C69_fatal : run (e [] [ACut]) [mi; klama] = CFail (mkerr [] (ExpectedGot [S_Cu] (Some klama))) /\
  run (e [] []) [klama] = run (e [] [ACut]) [klama].
Proof. split; reflexivity. Qed.

(** a [not] before a [cut] field is not fatal; with [longest] the cut is, though Short matches *)
Example C69_not_fatal : run (mkdecl "S" [] TKNode [] (DStruct (Unnamed [at_ "Mi" []; at_ "Cu" [ANot (nm "Klama"); ACut]]))) [mi; klama] = CErr (mkerr [klama] (Nom KNot)) /\
  run (mkdecl "S" [] TKNode [] (DStruct (Unnamed [at_ "Mi" []; at_ "Cu" [ANot (nm "Klama"); ACut]]))) [mi; mi] = CFail (mkerr [] (ExpectedGot [S_Cu] (Some mi))) /\
  run (e [ALongest] [ACut]) [mi; klama] = CFail (mkerr [] (ExpectedGot [S_Cu] (Some klama))).
Proof. repeat split. Qed.

(** [must_consume]: refused when nothing was read, except that [longest] ignores it *)
Definition n (attrs : list pattr) : decl := mkdecl "N" [] TKNode attrs (DEnum [mkvariant "V" [] (Unnamed [at_ "Nothing" []])]).
Example C69_consume : run (n [ANonEmpty]) [mi] = CErr (mkerr [mi] (Empty "N")) /\
  run (n [ALongest; ANonEmpty]) [mi] = COk [mi] (VNode "N::V" [VPass []]) /\ run (n []) [mi] = COk [mi] (VNode "N::V" [VPass []]).
Proof. repeat split. Qed.

(** [not_after] on a field, though the macro reads it, gives no parser *)
Example C69_not_after_field : ex (mkdecl "F" [] TKNode [] (DStruct (Unnamed [at_ "Mi" [ANotAfter (nm "Cu")]]))) = Rejected.
Proof. reflexivity. Qed.
Example C69_longest_postcond : ex (e [ALongest; APostCond "|_| true"] []) = Rejected /\
  exists p, ex (e [APostCond "|_| true"] []) = Parser p.
Proof. split; [reflexivity|eexists; reflexivity]. Qed.

(** the parsers of the example take prefixes *)
Example C69_prefixes : (forall t, takes_prefix (ex_env t)) /\ takes_prefix (fun i => match ex bridi with Parser p => p i | _ => COut end).
Proof.
  assert (S : forall s, takes_prefix (p_sel s)).
  { intros s [|t i] r v H; cbn in H; [discriminate|]. destruct (sel_eqb (selmaho t) s); [|discriminate].
    inversion H; subst. exists [t]. split; [reflexivity|constructor]. }
  assert (E : forall t, takes_prefix (ex_env t)).
  { intros t. unfold ex_env. repeat match goal with |- takes_prefix (match ?x with _ => _ end) => destruct x end;
      try apply S; try (intros i r v H; discriminate).
    intros i r v H. inversion H; subst. exists []. split; [reflexivity|repeat constructor]. }
  split; [exact E|].
  assert (L : forall k q n i r v, takes_prefix q -> loop_fuel n k q i = COk r v -> exists m, i = m ++ r /\ exists vs, v = VPass vs /\ made_of_all vs m).
  { intros k q n0. induction n0 as [|n0 IH]; intros i r v Hq H; [discriminate|]. cbn [loop_fuel] in H.
    destruct (q i) as [|r1 v1|x|x] eqn:Eq; try discriminate.
    - destruct (same_len r1 i); [discriminate|]. destruct (Nat.ltb _ _); [|discriminate].
      destruct (loop_fuel n0 k q r1) as [|r2 v2|x|x] eqn:El; try discriminate. inversion H; subst.
      apply Hq in Eq as (m1 & -> & M1). apply IH in El as (m2 & -> & vs & -> & M2); [|exact Hq].
      exists (m1 ++ m2). split; [apply app_assoc|]. exists (v1 :: vs). split; [reflexivity|constructor; assumption].
    - inversion H; subst. exists []. split; [reflexivity|]. exists []. split; [reflexivity|constructor]. }
  assert (W : forall w q, takes_prefix q -> takes_prefix (crate_with w q)).
  { intros w q Hq i r v H. unfold crate_with in H. destruct (String.eqb w "many0"); [|destruct (String.eqb w "many1"); [|discriminate]].
    - apply L in H as (m & -> & vs & -> & M); [|exact Hq]. exists m. split; [reflexivity|constructor; exact M].
    - unfold p_many1 in H. destruct (q i) as [|r1 v1|x|x] eqn:Eq; try discriminate.
      destruct (p_loop KMany1 q r1) as [|r2 v2|x|x] eqn:El; try discriminate. inversion H; subst.
      apply Hq in Eq as (m1 & -> & M1). apply L in El as (m2 & -> & vs & -> & M2); [|exact Hq].
      exists (m1 ++ m2). split; [apply app_assoc|]. constructor. constructor; assumption. }
  refine (C69_tokens ex_env crate_with crate_container_with (fun _ _ => true) bridi _ eq_refl _ E W _).
  - intros X; discriminate X.
  - intros w i r v H. discriminate.
Qed.

(** the parser of the grammar, on a sentence *)
Example C70_example env : implements env -> forall root, cst_parse (lexed "mi klama le zarci") = Ret (inl root) ->
  parse_root env (lexed "mi klama le zarci") = Ret (inl root).
Proof. intros H root E. rewrite (C70_unique env H). exact E. Qed.
Example C70_example_accepted : exists root, cst_parse (lexed "mi klama le zarci") = Ret (inl root).
Proof. eexists. vm_compute. reflexivity. Qed.

(** a type of the grammar: a letter word that began with tei and its letters, where no foi can be read, is fatal *)
Example C70_tei env : implements env -> forall i j k vt vl e,
  (exists x, env (nm "Lerfu") i = CErr x) -> (exists x, env (nm "Lau") i = CErr x) ->
  env (nm "Tei") i = COk j vt -> env (TyRef (nm "LerfuString")) j = COk k vl -> env (nm "Foi") k = CErr e ->
  env (nm "LerfuWord") i = CFail e.
Proof.
  intros H i j k vt vl e0 (x1 & E1) (x2 & E2) E3 E4 E5.
  destruct (C70_types env d_LerfuWord [] H) as (d' & p & Ei & Ed & Hp).
  { assert (F : find_decl "LerfuWord" = Some d_LerfuWord) by (vm_compute; reflexivity).
    apply find_some in F. apply F. }
  { exact (used_rule G_LerfuWord). }
  change (env (nm "LerfuWord") i) with (env (TyName (d_name d_LerfuWord) []) i). rewrite Hp. vm_compute in Ei. inversion Ei; subst d'; clear Ei.
  match type of Ed with derive_parse _ _ _ _ ?d = _ => set (d0 := d) in * end.
  pose (v1 := mkvariant "Lerfu" [] (Unnamed [fd (nm "Lerfu")])).
  pose (v2 := mkvariant "Lau" [] (Named [fd (nm "Lau"); fd (nm "Lerfu")])).
  pose (v3 := mkvariant "Tei" [] (Named [fd (nm "Tei"); fd (TyRef (nm "LerfuString")); mkfield (nm "Foi") [ACut]])).
  assert (Q : exists q, derive_parse env crate_with crate_container_with crate_cond (as_struct d0 v3) = Parser q) by (eexists; reflexivity).
  destruct Q as (q & Q).
  refine (C69_cut_enum env crate_with crate_container_with crate_cond d0 p [v1; v2; v3] [v1; v2] v3 [] q Ed eq_refl _ _ _ eq_refl Q i e0 _ _).
  - discriminate.
  - intros w [].
  - intros [].
  - constructor; [|constructor; [|constructor]].
    + eexists. split; [reflexivity|]. exists x1. vm_compute. vm_compute in E1. rewrite E1. reflexivity.
    + eexists. split; [reflexivity|]. exists x2. vm_compute. vm_compute in E2. rewrite E2. reflexivity.
  - refine (C69_cut env crate_with crate_container_with crate_cond (as_struct d0 v3) q _ [fd (nm "Tei"); fd (TyRef (nm "LerfuString"))] (mkfield (nm "Foi") [ACut]) [] Q eq_refl _ eq_refl _ i k [vt; vl] (env (nm "Foi")) e0 _ _ _ E5).
    + intros w [].
    + left. reflexivity.
    + econstructor; [|econstructor; [|constructor]].
      * split; [intros t []|]. exists (env (nm "Tei")). split; [apply (FPlain env crate_with (fd (nm "Tei"))); intros w []|exact E3].
      * split; [intros t []|]. exists (env (TyRef (nm "LerfuString"))). split; [apply (FPlain env crate_with (fd (TyRef (nm "LerfuString")))); intros w []|exact E4].
    + intros t [X|[]]; discriminate X.
    + apply (FPlain env crate_with (mkfield (nm "Foi") [ACut])). intros w [X|[]]; discriminate X.
Qed.
