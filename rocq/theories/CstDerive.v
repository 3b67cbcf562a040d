(** CstDerive.v -- the grammar table of CstRules.v is what the derive macro makes
    of the declarations in CstDecls.v. *)
From Verif Require Import Base Span Selmaho Lex Cst CstRules CstApi CstMeta CstTotal Derive CstDecls.
From Coq Require Import Lia Arith.
Local Open Scope list_scope.
Import Datatypes.

(** * Loops *)

Lemma loop_fuel_irr k p : forall f1 f2 i, (List.length i < f1)%nat -> (List.length i < f2)%nat ->
  loop_fuel f1 k p i = loop_fuel f2 k p i.
Proof.
  induction f1 as [|f1 IH]; intros f2 i H1 H2; [lia|]. destruct f2 as [|f2]; [lia|].
  cbn [loop_fuel]. destruct (p i) as [|r v|e|e]; try reflexivity.
  destruct (same_len r i); [reflexivity|]. destruct (Nat.ltb (List.length r) (List.length i)) eqn:E; [|reflexivity].
  apply Nat.ltb_lt in E. rewrite (IH f2) by lia. reflexivity.
Qed.

Lemma p_loop_eq k p i : (forall r v, p i = COk r v -> (List.length r <= List.length i)%nat) ->
  p_loop k p i = match p i with
                 | COk r v => if same_len r i then CErr (mkerr i (Nom k))
                              else match p_loop k p r with
                                   | COk r' w => COk r' (vcons v w)
                                   | other => other
                                   end
                 | CErr _ => COk i (VPass [])
                 | other => other
                 end.
Proof.
  intros H. unfold p_loop at 1. cbn [loop_fuel]. destruct (p i) as [|r v|e|e]; try reflexivity.
  specialize (H r v eq_refl). destruct (same_len r i) eqn:Es; [reflexivity|].
  assert (L : (List.length r < List.length i)%nat).
  { unfold same_len in Es. apply Nat.eqb_neq in Es. lia. }
  rewrite (proj2 (Nat.ltb_lt _ _) L). unfold p_loop. rewrite (loop_fuel_irr k p (List.length i) (S (List.length r))) by lia.
  reflexivity.
Qed.

Lemma till_fuel_irr p q : forall f1 f2 i, (List.length i < f1)%nat -> (List.length i < f2)%nat ->
  till_fuel f1 p q i = till_fuel f2 p q i.
Proof.
  induction f1 as [|f1 IH]; intros f2 i H1 H2; [lia|]. destruct f2 as [|f2]; [lia|].
  cbn [till_fuel]. destruct (q i) as [|r v|e|e]; try reflexivity.
  destruct (p i) as [|r v|e0|e0]; try reflexivity.
  destruct (same_len r i); [reflexivity|]. destruct (Nat.ltb (List.length r) (List.length i)) eqn:E; [|reflexivity].
  apply Nat.ltb_lt in E. rewrite (IH f2) by lia. reflexivity.
Qed.

Lemma p_till_eq p q i : (forall r v, p i = COk r v -> (List.length r <= List.length i)%nat) ->
  p_many_till p q i =
      match q i with
      | COk r v => COk r (VPass [VPass []; v])
      | CErr _ =>
          match p i with
          | COk r v =>
              if same_len r i then CErr (mkerr r (Nom KManyTill))
              else
                match p_many_till p q r with
                | COk r' w => COk r' (match w with VPass [VPass l; x] => VPass [VPass (v :: l); x] | _ => w end)
                | other => other
                end
          | other => other
          end
      | other => other
      end.
Proof.
  intros H. unfold p_many_till at 1. cbn [till_fuel]. destruct (q i) as [|r v|e|e]; try reflexivity.
  destruct (p i) as [|r v|e0|e0]; try reflexivity.
  specialize (H r v eq_refl). destruct (same_len r i) eqn:Es; [reflexivity|].
  assert (L : (List.length r < List.length i)%nat).
  { unfold same_len in Es. apply Nat.eqb_neq in Es. lia. }
  rewrite (proj2 (Nat.ltb_lt _ _) L). unfold p_many_till. rewrite (till_fuel_irr p q (List.length i) (S (List.length r))) by lia.
  reflexivity.
Qed.

Lemma loop_ext k p q : (forall i, p i = q i) -> forall f i, loop_fuel f k p i = loop_fuel f k q i.
Proof.
  intros H. induction f as [|f IH]; intros i; [reflexivity|]. cbn [loop_fuel]. rewrite H.
  destruct (q i); try reflexivity. destruct (same_len rest i); [reflexivity|].
  destruct (Nat.ltb _ _); [|reflexivity]. rewrite IH. reflexivity.
Qed.

Lemma till_ext p q p' q' : (forall i, p i = p' i) -> (forall i, q i = q' i) ->
  forall f i, till_fuel f p q i = till_fuel f p' q' i.
Proof.
  intros H H'. induction f as [|f IH]; intros i; [reflexivity|]. cbn [till_fuel]. rewrite H, H'.
  destruct (q' i); try reflexivity. destruct (p' i); try reflexivity. destruct (same_len rest i); [reflexivity|].
  destruct (Nat.ltb _ _); [|reflexivity]. rewrite IH. reflexivity.
Qed.

Lemma many1_ext p q : (forall i, p i = q i) -> forall i, p_many1 p i = p_many1 q i.
Proof.
  intros H i. unfold p_many1, p_loop. rewrite H. destruct (q i); try reflexivity. rewrite (loop_ext _ _ _ H). reflexivity.
Qed.

(** * Expressions as parsers *)

Section Sem.
Context (call : cnt -> parser).

Fixpoint sem (e : gexp cnt) : parser :=
  match e with
  | GTok s => p_sel s
  | GAny => p_token
  | GSpan name => fun i => match i with t :: r => COk r (VSpan name (tspan t)) | [] => CErr (mkerr [] (Nom KEof)) end
  | GCall n => call n
  | GNil => fun i => COk i (VPass [])
  | GCons e es => fun i => match sem e i with
                           | COk r v => match sem es r with
                                        | COk r' w => COk r' (vcons v w)
                                        | other => other
                                        end
                           | other => other
                           end
  | GAlt a b => p_or (sem a) (sem b)
  | GOpt e => p_opt (sem e)
  | GLoop k e => p_loop k (sem e)
  | GMany1 e => p_many1 (sem e)
  | GManyTill f g => p_many_till (sem f) (sem g)
  | GNotThen p e => p_not_then (sem p) (sem e)
  | GNotAfter e p => p_not_after (sem e) (sem p)
  | GCut e => p_cut (sem e)
  | GConsume name e => p_must_consume name (sem e)
  | GPost c e => fun i => match sem e i with
                          | COk r v => if holds c v then COk r v else CErr (mkerr i PostConditionFailed)
                          | other => other
                          end
  | GNode name e => p_map (node name) (sem e)
  end.

Hypothesis Hcall : forall k z i,
  (forall e i, grun crule k e i <> COut -> sem e i = grun crule k e i) ->
  grun crule k (crule z) i <> COut -> call z i = grun crule k (crule z) i.

Lemma grun_le n e i r v : grun crule n e i = COk r v -> (List.length r <= List.length i)%nat.
Proof. intros H. apply run_derives in H as (m & -> & _). rewrite app_length. lia. Qed.

Lemma sem_grun : forall n e i, grun crule n e i <> COut -> sem e i = grun crule n e i.
Proof.
  induction n as [|n IH]; intros e i; [intros H; destruct (H eq_refl)|].
  rewrite grun_S.
  destruct e as [s| |nm|z| |e es|a b|e|k e|e|f g|p e|e p|e|nm e|c e|nm e]; cbn [gstep sem]; intros H; try reflexivity.
  - apply Hcall; [exact IH|exact H].
  - assert (E : sem e i = grun crule n e i) by (apply IH; intros X; rewrite X in H; apply H; reflexivity).
    rewrite E. destruct (grun crule n e i) as [|r v|x|x]; try reflexivity.
    assert (E2 : sem es r = grun crule n es r) by (apply IH; intros X; rewrite X in H; apply H; reflexivity).
    rewrite E2. reflexivity.
  - unfold p_or. assert (E : sem a i = grun crule n a i) by (apply IH; intros X; rewrite X in H; apply H; reflexivity).
    rewrite E. destruct (grun crule n a i) as [|r v|x|x]; try reflexivity.
    assert (E2 : sem b i = grun crule n b i) by (apply IH; intros X; rewrite X in H; apply H; reflexivity).
    rewrite E2. reflexivity.
  - unfold p_opt. rewrite (IH e i); [reflexivity|]. intros X; rewrite X in H; apply H; reflexivity.
  - assert (E : sem e i = grun crule n e i) by (apply IH; intros X; rewrite X in H; apply H; reflexivity).
    rewrite p_loop_eq; [|intros r v; rewrite E; apply grun_le].
    rewrite E. destruct (grun crule n e i) as [|r v|x|x]; try reflexivity. destruct (same_len r i); [reflexivity|].
    assert (E2 : sem (GLoop k e) r = grun crule n (GLoop k e) r) by (apply IH; intros X; rewrite X in H; apply H; reflexivity).
    cbn [sem] in E2. rewrite E2. reflexivity.
  - unfold p_many1. assert (E : sem e i = grun crule n e i) by (apply IH; intros X; rewrite X in H; apply H; reflexivity).
    rewrite E. destruct (grun crule n e i) as [|r v|x|x]; try reflexivity.
    assert (E2 : sem (GLoop KMany1 e) r = grun crule n (GLoop KMany1 e) r) by (apply IH; intros X; rewrite X in H; apply H; reflexivity).
    cbn [sem] in E2. rewrite E2. reflexivity.
  - assert (E : sem g i = grun crule n g i) by (apply IH; intros X; rewrite X in H; apply H; reflexivity).
    destruct (grun crule n g i) as [|r v|x|x] eqn:Eg; [destruct (H eq_refl)| | |].
    + unfold p_many_till; cbn [till_fuel]; rewrite E; reflexivity.
    + assert (E1 : sem f i = grun crule n f i) by (apply IH; intros X; rewrite X in H; apply H; reflexivity).
      rewrite p_till_eq; [|intros r v; rewrite E1; apply grun_le]. rewrite E, E1.
      destruct (grun crule n f i) as [|r v|y|y]; try reflexivity. destruct (same_len r i); [reflexivity|].
      assert (E2 : sem (GManyTill f g) r = grun crule n (GManyTill f g) r) by (apply IH; intros X; rewrite X in H; apply H; reflexivity).
      cbn [sem] in E2. rewrite E2. reflexivity.
    + unfold p_many_till; cbn [till_fuel]; rewrite E; reflexivity.
  - unfold p_not_then. assert (E : sem p i = grun crule n p i) by (apply IH; intros X; rewrite X in H; apply H; reflexivity).
    rewrite E. destruct (grun crule n p i) as [|r v|x|x]; try reflexivity. apply IH. exact H.
  - unfold p_not_after. assert (E : sem e i = grun crule n e i) by (apply IH; intros X; rewrite X in H; apply H; reflexivity).
    rewrite E. destruct (grun crule n e i) as [|r v|x|x]; try reflexivity.
    rewrite (IH p r); [reflexivity|]. intros X; rewrite X in H; apply H; reflexivity.
  - unfold p_cut. rewrite (IH e i); [reflexivity|]. intros X; rewrite X in H; apply H; reflexivity.
  - unfold p_must_consume. rewrite (IH e i); [reflexivity|]. intros X; rewrite X in H; apply H; reflexivity.
  - rewrite (IH e i); [reflexivity|]. intros X; rewrite X in H; apply H; reflexivity.
  - unfold p_map, node. rewrite (IH e i); [reflexivity|]. intros X; rewrite X in H; apply H; reflexivity.
Qed.
End Sem.

(** * The derive, giving expressions *)

Section Deep.
Context (res : ty -> option (gexp cnt)).

Definition obind {A B} (o : option A) (f : A -> option B) : option B := match o with Some a => f a | None => None end.

Definition g_with (w : string) (e : gexp cnt) : option (gexp cnt) :=
  if String.eqb w "many0" then Some (GMany0 e) else if String.eqb w "many1" then Some (GMany1 e) else None.

Fixpoint g_nots (l : list ty) (e : gexp cnt) : option (gexp cnt) :=
  match l with
  | [] => Some e
  | t :: l' => obind (res t) (fun p => obind (g_nots l' e) (fun e' => Some (GNotThen p e')))
  end.

Definition g_element (f : field) : option (gexp cnt) :=
  match field_attrs_of (f_attrs f) with
  | Some (mkfa cut nots [] w) =>
      obind (match w with
             | None => res (f_ty f)
             | Some s => obind (res (elem_type (f_ty f))) (g_with s)
             end)
            (fun e => g_nots nots (if cut then GCut e else e))
  | _ => None
  end.

Fixpoint g_elements (l : list field) : option (list (gexp cnt)) :=
  match l with
  | [] => Some []
  | f :: l' => obind (g_element f) (fun e => obind (g_elements l') (fun es => Some (e :: es)))
  end.

Definition g_construct (d : decl) (v : option variant) (e : gexp cnt) : option (gexp cnt) :=
  match d_tree d with
  | TKNode => Some (GNode (node_name_of d v) e)
  | TKPass => Some e
  | TKSpanLeaf => match e with
                  | GCons (GSpan _) GNil => Some (GSpan (d_name d))
                  | _ => None
                  end
  end.

Definition g_struct (d : decl) (v : option variant) (fs : fields) (mc : bool) : option (gexp cnt) :=
  match fs with
  | Unit => None
  | Named l | Unnamed l =>
      match g_elements l with
      | None => None
      | Some [] => if mc then None else g_construct d v GNil
      | Some es => obind (g_construct d v (gtuple es))
                     (fun e => Some (if mc then GConsume (constructor_name v) e else e))
      end
  end.

Fixpoint g_branches (d : decl) (vs : list variant) : option (list (gexp cnt)) :=
  match vs with
  | [] => Some []
  | v :: vs' =>
      match variant_attrs_of (v_attrs v), v_fields v with
      | None, _ | _, Unit => None
      | Some mc, fs => obind (g_struct d (Some v) fs mc) (fun e => obind (g_branches d vs') (fun es => Some (e :: es)))
      end
  end.

Definition g_inner (d : decl) (a : container_attrs) : option (gexp cnt) :=
  match c_with a with
  | Some _ => None
  | None =>
      match d_data d with
      | DUnion => None
      | DStruct fs => g_struct d None fs (c_must_consume a)
      | DEnum vs =>
          match g_branches d vs with
          | Some (e :: es) => if c_longest a then None
                              else Some (if c_must_consume a then GConsume (d_name d) (galt e es) else galt e es)
          | _ => None
          end
      end
  end.

Fixpoint g_after (l : list ty) (e : gexp cnt) : option (gexp cnt) :=
  match l with
  | [] => Some e
  | t :: l' => obind (res t) (fun p => g_after l' (GNotAfter e p))
  end.

Definition g_derive (d : decl) : option (gexp cnt) :=
  match container_of (d_attrs d) with
  | None => None
  | Some a =>
      obind (g_inner d a) (fun e =>
        match c_post_conds a with
        | [] => g_after (c_after_nots a) e
        | [c] => obind (cond_of c) (fun c => g_after (c_after_nots a) (GPost c e))
        | _ => None
        end)
  end.

Fixpoint g_tys (l : list ty) : option (list (gexp cnt)) :=
  match l with
  | [] => Some []
  | t :: l' => obind (res t) (fun e => obind (g_tys l') (fun es => Some (e :: es)))
  end.

Definition g_token_type (k : tok_kind) (name : string) (s : Selmaho) : option (gexp cnt) :=
  obind (res (nm "Bu")) (fun bu => obind (res (nm "Zei")) (fun zei => obind (res (nm "Bahe")) (fun bahe =>
  obind (res (TyOption (TyRef (nm "Indicators")))) (fun ind =>
  let checked p := GNotAfter (GNotAfter p bu) zei in
  Some match k with
       | KRaw => checked (GTok s)
       | KNoIndicators => GNode name (checked (gtuple [GMany0 bahe; GTok s]))
       | KSingle => GNode name (checked (gtuple [GMany0 bahe; GTok s; ind]))
       end)))).

Definition g_impl (t : ty) : option (gexp cnt) :=
  match t with
  | TyRef t => res t
  | TyOption t => obind (res t) (fun e => Some (GOpt e))
  | TyTuple l => obind (g_tys l) (fun es => Some (gtuple es))
  | TySlice _ => None
  | TyName n args =>
      if String.eqb n "Token" then Some GAny
      else if String.eqb n "Span" then Some (GSpan "Span")
      else if String.eqb n "Bu" then Some (GTok S_Bu)
      else if String.eqb n "LohuSumti" then
        obind (res (nm "Lohu")) (fun a => obind (res (nm "Token")) (fun b => obind (res (nm "Lehu")) (fun c =>
        Some (GNode "LohuSumti" (gtuple [a; GCut (GManyTill b c)])))))
      else match assoc n token_types with
           | Some (k, s) => g_token_type k n s
           | None =>
               match assoc n aliases with
               | Some t => res t
               | None =>
                   match find_decl n with
                   | Some d => obind (instantiate d args) g_derive
                   | None => None
                   end
               end
           end
  end.
End Deep.

(** the name of the type of a rule *)
Definition rule_name (n : cnt) : string :=
  match n with
  | G_Bu => "Bu"
  | G_Bahe => "Bahe"
  | G_Zei => "Zei"
  | G_Frees => "Frees"
  | G_Text => "Text"
  | G_Paragraphs => "Paragraphs"
  | G_Paragraph => "Paragraph"
  | G_ParagraphItem => "ParagraphItem"
  | G_Fragment => "Fragment"
  | G_Sentences1 => "Sentences1"
  | G_Sentences3 => "Sentences3"
  | G_ParagraphSeparator => "ParagraphSeparator"
  | G_SentenceSeparator => "SentenceSeparator"
  | G_ConnectedSentenceSeparator => "ConnectedSentenceSeparator"
  | G_CloseSentenceSeparator => "CloseSentenceSeparator"
  | G_Sentence => "Sentence"
  | G_SentenceTail => "SentenceTail"
  | G_SentenceTail1 => "SentenceTail1"
  | G_SentenceTail1After => "SentenceTail1After"
  | G_SentenceTail2 => "SentenceTail2"
  | G_SentenceTail2Connective => "SentenceTail2Connective"
  | G_SentenceTail2After => "SentenceTail2After"
  | G_SentenceTail3 => "SentenceTail3"
  | G_SentenceTail3After => "SentenceTail3After"
  | G_SentenceTail4 => "SentenceTail4"
  | G_GekSentence => "GekSentence"
  | G_Subsentence => "Subsentence"
  | G_Args => "Args"
  | G_TailArgs => "TailArgs"
  | G_Prenex => "Prenex"
  | G_Arg => "Arg"
  | G_PeheConnective => "PeheConnective"
  | G_Arg3 => "Arg3"
  | G_Termset => "Termset"
  | G_Selbri => "Selbri"
  | G_SelbriBefore => "SelbriBefore"
  | G_Selbri1 => "Selbri1"
  | G_Selbri2 => "Selbri2"
  | G_Selbri3 => "Selbri3"
  | G_Selbri4 => "Selbri4"
  | G_Selbri5 => "Selbri5"
  | G_Selbri6 => "Selbri6"
  | G_TanruUnit => "TanruUnit"
  | G_TanruUnit1 => "TanruUnit1"
  | G_BeforeTanruUnit => "BeforeTanruUnit"
  | G_BoundArguments => "BoundArguments"
  | G_TanruUnit2 => "TanruUnit2"
  | G_ZeiClause => "ZeiClause"
  | G_ZeiBuInner => "ZeiBuInner"
  | G_ZeiTail => "ZeiTail"
  | G_Tag => "Tag"
  | G_TagValue => "TagValue"
  | G_TagWord => "TagWord"
  | G_TimeSpaceCaha => "TimeSpaceCaha"
  | G_Time => "Time"
  | G_TimeOffset => "TimeOffset"
  | G_TimeDuration => "TimeDuration"
  | G_IntervalProperty => "IntervalProperty"
  | G_Space => "Space"
  | G_SpaceOffset => "SpaceOffset"
  | G_SpaceInterval => "SpaceInterval"
  | G_SpaceIntervalProperty => "SpaceIntervalProperty"
  | G_SpaceMotion => "SpaceMotion"
  | G_Sumti => "Sumti"
  | G_Sumti1 => "Sumti1"
  | G_VuhoRelative => "VuhoRelative"
  | G_RelativeClauses => "RelativeClauses"
  | G_RelativeClause => "RelativeClause"
  | G_GoiRelativeClause => "GoiRelativeClause"
  | G_NoiRelativeClause => "NoiRelativeClause"
  | G_Sumti3 => "Sumti3"
  | G_Sumti3ConnectedPre => "Sumti3ConnectedPre"
  | G_Sumti4 => "Sumti4"
  | G_Quantifier => "Quantifier"
  | G_Number => "Number"
  | G_NumberRest => "NumberRest"
  | G_LerfuString => "LerfuString"
  | G_MiscNumbers => "MiscNumbers"
  | G_LerfuWord => "LerfuWord"
  | G_Lerfu => "Lerfu"
  | G_BuInner => "BuInner"
  | G_SumtiComponent1 => "SumtiComponent1"
  | G_LohuSumti => "LohuSumti"
  | G_LuSumti => "LuSumti"
  | G_ModifiedSumti => "ModifiedSumti"
  | G_SumtiModifier => "SumtiModifier"
  | G_GadriSumti => "GadriSumti"
  | G_Gadri => "Gadri"
  | G_GadriSumtiPre => "GadriSumtiPre"
  | G_GadriSumtiContents => "GadriSumtiContents"
  | G_LaSumti => "LaSumti"
  | G_ZoSumti => "ZoSumti"
  | G_ZoiSumti => "ZoiSumti"
  | G_ZoiDelimiter => "ZoiDelimiter"
  | G_ZoiText => "ZoiText"
  | G_Free => "Free"
  | G_Vocative => "Vocative"
  | G_SeiTail => "SeiTail"
  | G_VocativeWords => "VocativeWords"
  | G_VocativeValue => "VocativeValue"
  | G_Subscript => "Subscript"
  | G_SubscriptValue => "SubscriptValue"
  | G_Indicators => "Indicators"
  | G_Indicator => "Indicator"
  | G_Guhek => "Guhek"
  | G_Interval => "Interval"
  | G_Joik => "Joik"
  | G_Gik => "Gik"
  | G_Gek => "Gek"
  | G_JoikJek => "JoikJek"
  | G_JoikEk => "JoikEk"
  | G_Expression => "Expression"
  | G_ReversePolish => "ReversePolish"
  | G_RPTail => "RPTail"
  | G_Expression1 => "Expression1"
  | G_ForethoughtExpression => "ForethoughtExpression"
  | G_Operand => "Operand"
  | G_Operand1 => "Operand1"
  | G_Operand2 => "Operand2"
  | G_Operand2ConnectedPre => "Operand2ConnectedPre"
  | G_Operand3 => "Operand3"
  | G_Operator => "Operator"
  | G_Operator1 => "Operator1"
  | G_Operator2 => "Operator2"
  | G_Operator3 => "Operator3"
  | G_OperatorComponent => "OperatorComponent"
  | G_OperatorComponentPre => "OperatorComponentPre"
  | G_OperatorComponent1 => "OperatorComponent1"
  | G_Ek => "Ek"
  | G_Jek => "Jek"
  | G_Gihek => "Gihek"
  end%string.

Definition rule_names : list (string * cnt) := map (fun n => (rule_name n, n)) all_cnts.

(** the expression of a type: a call for the types of the table *)
Fixpoint resolve (k : nat) (t : ty) : option (gexp cnt) :=
  match k with
  | O => None
  | S k' =>
      match (match t with TyName n [] => assoc n rule_names | _ => None end) with
      | Some n => Some (GCall n)
      | None => g_impl (resolve k') t
      end
  end.

Lemma table_derived : Forall (fun n => g_impl (resolve 12) (nm (rule_name n)) = Some (crule n)) all_cnts.
Proof. unfold all_cnts. repeat (constructor; [vm_compute; reflexivity|]). constructor. Qed.

(** * Both agree *)

Lemma get_field_spec l : forall c ns an w c' ns' an' w',
  get_field l (mkfa c ns an w) = Some (mkfa c' ns' an' w') ->
  (forall t, In t ns' -> In t ns \/ In t (attr_types l)) /\
  match w' with
  | None => w = None /\ has_with l = false
  | Some _ => w = w' /\ has_with l = false \/ has_with l = true
  end.
Proof.
  induction l as [|a l IH]; intros c ns an w c' ns' an' w' H; cbn [get_field] in H.
  - inversion H; subst. split; [auto|]. destruct w'; auto.
  - destruct a; try discriminate.
    + apply IH in H as [H1 H2]. split; [exact H1|exact H2].
    + destruct w; [discriminate|]. apply IH in H as [H1 H2]. split; [exact H1|].
      destruct w'; [right; reflexivity|]. destruct H2 as [H2 _]. discriminate.
    + apply IH in H as [H1 H2]. split; [|exact H2]. intros t' Ht. apply H1 in Ht as [Ht|Ht].
      * apply in_app_iff in Ht as [Ht|[<-|[]]]; [left; exact Ht|right; left; reflexivity].
      * right. right. exact Ht.
    + apply IH in H as [H1 H2]. split; [|exact H2]. intros t' Ht. apply H1 in Ht as [Ht|Ht]; [left; exact Ht|].
      right. right. exact Ht.
Qed.

Lemma get_container_after l : forall an w pc lg mc a,
  get_container l (mkca an w pc lg mc) = Some a -> forall t, In t (c_after_nots a) -> In t an \/ In t (attr_types l).
Proof.
  induction l as [|x l IH]; intros an w pc lg mc a H t Ht; cbn [get_container] in H.
  - inversion H; subst. left. exact Ht.
  - destruct x; try discriminate; try (eapply IH in H; [|exact Ht]; exact H).
    + destruct w; [discriminate|]. eapply IH in H; [|exact Ht]. exact H.
    + eapply IH in H; [|exact Ht]. destruct H as [H|H]; [|right; right; exact H].
      apply in_app_iff in H as [H|[<-|[]]]; [left; exact H|right; left; reflexivity].
Qed.

Section Agree.
Context (call : cnt -> parser) (env : ty -> parser) (res : ty -> option (gexp cnt)).
Notation sem := (sem call).
Notation good t := (forall e, res t = Some e -> forall i, env t i = sem e i).
Notation goods l := (forall t, In t l -> good t).

Lemma nots_ok l : goods l -> forall p e e', (forall i, p i = sem e i) -> g_nots res l e = Some e' ->
  forall i, fold_right (fun t p => p_not_then (env t) p) p l i = sem e' i.
Proof.
  induction l as [|t l IH]; intros G p e e' He H; cbn [g_nots fold_right] in *.
  - inversion H; subst. exact He.
  - destruct (res t) as [q|] eqn:Eq; [|discriminate]. cbn [obind] in H.
    destruct (g_nots res l e) as [e1|] eqn:E1; [|discriminate]. cbn [obind] in H. inversion H; subst.
    intros i. cbn [CstDerive.sem]. unfold p_not_then. rewrite (G t (or_introl eq_refl) q Eq i).
    destruct (sem q i); try reflexivity. apply (IH (fun u Hu => G u (or_intror Hu)) p e e1 He E1).
Qed.

Lemma with_ok w e e' p : g_with w e = Some e' -> (forall i, p i = sem e i) -> forall i, crate_with w p i = sem e' i.
Proof.
  unfold g_with, crate_with. intros H He. destruct (String.eqb w "many0").
  - inversion H; subst. intros i. apply (loop_ext KMany0 _ _ He).
  - destruct (String.eqb w "many1"); [|discriminate]. inversion H; subst. intros i. apply (many1_ext _ _ He).
Qed.

Notation element' := (element env crate_with).
Lemma element_ok f e : goods (field_types f) -> g_element res f = Some e ->
  exists p, element' f = Some p /\ forall i, p i = sem e i.
Proof.
  unfold g_element, element, field_attrs_of, field_types. intros G H.
  destruct (get_field (f_attrs f) (mkfa false [] [] None)) as [[cut nots an w]|] eqn:Ef; [|discriminate].
  apply get_field_spec in Ef as [E1 E2]. destruct an; [|discriminate].
  eexists. split; [reflexivity|].
  assert (Gn : goods nots). { intros t Ht. apply G. right. apply E1 in Ht as [[]|Ht]. exact Ht. }
  pose proof (G _ (or_introl eq_refl)) as G0. clear G.
  destruct w as [w|].
  - destruct E2 as [[E2 _]|E2]; [discriminate|]. rewrite E2 in G0.
    destruct (res (elem_type (f_ty f))) as [e0|] eqn:E0; [|discriminate]. cbn [obind] in H.
    destruct (g_with w e0) as [e1|] eqn:Ew; [|discriminate]. cbn [obind] in H.
    pose proof (with_ok w e0 e1 _ Ew (G0 e0 eq_refl)) as Hw.
    apply (nots_ok nots Gn _ (if cut then GCut e1 else e1) _); [|exact H].
    intros i. destruct cut; [cbn; unfold p_cut; rewrite Hw; reflexivity|apply Hw].
  - destruct E2 as [_ E2]. rewrite E2 in G0.
    destruct (res (f_ty f)) as [e0|] eqn:E0; [|discriminate]. cbn [obind] in H.
    apply (nots_ok nots Gn _ (if cut then GCut e0 else e0) _); [|exact H].
    intros i. destruct cut; [cbn; unfold p_cut; rewrite (G0 e0 eq_refl); reflexivity|apply (G0 e0 eq_refl)].
Qed.

Lemma elements_ok l : forall es, goods (flat_map field_types l) -> g_elements res l = Some es ->
  exists ps, elements env crate_with l = Some ps /\ Forall2 (fun p e => forall i, p i = sem e i) ps es.
Proof.
  induction l as [|f l IH]; intros es G H; cbn [g_elements elements] in *.
  - inversion H; subst. exists []. split; [reflexivity|constructor].
  - destruct (g_element res f) as [e|] eqn:Ee; [|discriminate]. cbn [obind] in H.
    destruct (g_elements res l) as [es'|] eqn:Es; [|discriminate]. cbn [obind] in H. inversion H; subst.
    destruct (element_ok f e) as (p & -> & Hp); [|exact Ee|].
    { intros t Ht. apply G. cbn [flat_map]. apply in_app_iff. left. exact Ht. }
    destruct (IH es') as (ps & -> & Hps); [|reflexivity|].
    { intros t Ht. apply G. cbn [flat_map]. apply in_app_iff. right. exact Ht. }
    exists (p :: ps). split; [reflexivity|constructor; assumption].
Qed.

Lemma tuple_ok ps es : Forall2 (fun p e => forall i, p i = sem e i) ps es -> forall i, p_tuple ps i = sem (gtuple es) i.
Proof.
  induction 1 as [|p e ps es Hp H IH]; intros i; cbn; [reflexivity|]. rewrite Hp. destruct (sem e i); try reflexivity.
  rewrite IH. reflexivity.
Qed.

Lemma construct_ok d v e e' p : g_construct d v e = Some e' -> (forall i, p i = sem e i) ->
  forall i, p_map (construct d v) p i = sem e' i.
Proof.
  unfold g_construct, p_map, construct. intros H Hp i. rewrite Hp. destruct (d_tree d).
  - inversion H; subst. reflexivity.
  - inversion H; subst. destruct (sem e' i); reflexivity.
  - destruct e as [| | | | |[] []| | | | | | | | | | |]; try discriminate. inversion H; subst. cbn. destruct i; reflexivity.
Qed.

Lemma struct_ok d v fs mc e : goods (flat_map field_types (fields_list fs)) -> g_struct res d v fs mc = Some e ->
  exists p, implement_struct env crate_with d v fs mc = Parser p /\ forall i, p i = sem e i.
Proof.
  unfold g_struct, implement_struct. intros G H.
  assert (K : forall l, goods (flat_map field_types l) ->
    match g_elements res l with
    | None => None
    | Some [] => if mc then None else g_construct d v GNil
    | Some es => obind (g_construct d v (gtuple es)) (fun e => Some (if mc then GConsume (constructor_name v) e else e))
    end = Some e ->
    exists p, match elements env crate_with l with
      | None => Rejected
      | Some [] => if mc then Rejected else Parser (fun i => COk i (construct d v (VPass [])))
      | Some ps =>
          let inner := p_map (construct d v) (p_tuple ps) in
          Parser (if mc then p_must_consume (constructor_name v) inner else inner)
      end = Parser p /\ forall i, p i = sem e i).
  { clear G H. intros l G H. destruct (g_elements res l) as [es|] eqn:Ee; [|discriminate].
    destruct (elements_ok l es G Ee) as (ps & -> & Hps).
    destruct Hps as [|p e0 ps es Hp Hps].
    - destruct mc; [discriminate|]. eexists. split; [reflexivity|]. intros i.
      apply (construct_ok d v GNil e (fun i => COk i (VPass []))) with (i := i) in H; [|reflexivity].
      cbn in H. rewrite <- H. reflexivity.
    - eexists. split; [reflexivity|]. intros i. cbn zeta.
      destruct (g_construct d v (gtuple (e0 :: es))) as [e1|] eqn:Ec; [|discriminate].
      cbn [obind] in H. inversion H; subst; clear H.
      assert (Hi : forall j, p_map (construct d v) (p_tuple (p :: ps)) j = sem e1 j).
      { apply (construct_ok d v _ _ _ Ec). apply tuple_ok. constructor; assumption. }
      destruct mc; [|apply Hi]. cbn [CstDerive.sem]. unfold p_must_consume. rewrite Hi. reflexivity. }
  destruct fs as [l|l|]; [apply K; assumption|apply K; assumption|discriminate].
Qed.

Lemma branches_ok d vs : forall es, goods (flat_map (fun v => flat_map field_types (fields_list (v_fields v))) vs) ->
  g_branches res d vs = Some es ->
  exists ps, branches env crate_with d vs = Some ps /\ Forall2 (fun p e => forall i, p i = sem e i) ps es.
Proof.
  induction vs as [|v vs IH]; intros es G H; cbn [g_branches branches] in *.
  - inversion H; subst. exists []. split; [reflexivity|constructor].
  - destruct (variant_attrs_of (v_attrs v)) as [mc|]; [|discriminate].
    destruct (g_branches res d vs) as [es'|] eqn:Es.
    2:{ destruct (v_fields v); [| |discriminate]; destruct (g_struct _ _ _ _ _) in H; discriminate. }
    destruct (IH es') as (ps & Eps & Hps); [|reflexivity|].
    { intros t Ht. apply G. cbn [flat_map]. apply in_app_iff. right. exact Ht. }
    rewrite Eps.
    assert (G1 : goods (flat_map field_types (fields_list (v_fields v)))).
    { intros t Ht. apply G. cbn [flat_map]. apply in_app_iff. left. exact Ht. }
    destruct (v_fields v) as [l|l|] eqn:Ev; [| |discriminate].
    + destruct (g_struct res d (Some v) (Named l) mc) as [e|] eqn:Eg; [|discriminate].
      destruct (struct_ok _ _ _ _ _ G1 Eg) as (p & -> & Hp). cbn [obind] in H. inversion H; subst.
      exists (p :: ps). split; [reflexivity|constructor; assumption].
    + destruct (g_struct res d (Some v) (Unnamed l) mc) as [e|] eqn:Eg; [|discriminate].
      destruct (struct_ok _ _ _ _ _ G1 Eg) as (p & -> & Hp). cbn [obind] in H. inversion H; subst.
      exists (p :: ps). split; [reflexivity|constructor; assumption].
Qed.

Lemma alt_ok ps es : Forall2 (fun p e => forall i, p i = sem e i) ps es -> forall p e, (forall i, p i = sem e i) ->
  forall i, p_alt p ps i = sem (galt e es) i.
Proof.
  unfold p_alt, galt. induction 1 as [|q f ps es Hq H IH]; intros p e Hp; cbn [fold_left]; [exact Hp|].
  apply IH. intros i. cbn. unfold p_or. rewrite Hp. destruct (sem e i); try reflexivity. rewrite Hq. reflexivity.
Qed.

Lemma after_ok l : goods l -> forall p e e', (forall i, p i = sem e i) -> g_after res l e = Some e' ->
  forall i, fold_left (fun p t => p_not_after p (env t)) l p i = sem e' i.
Proof.
  induction l as [|t l IH]; intros G p e e' Hp H; cbn [g_after fold_left] in *.
  - inversion H; subst. exact Hp.
  - destruct (res t) as [q|] eqn:Eq; [|discriminate]. cbn [obind] in H.
    apply (IH (fun u Hu => G u (or_intror Hu)) _ (GNotAfter e q)); [|exact H].
    intros i. cbn. unfold p_not_after. rewrite Hp. destruct (sem e i); try reflexivity.
    rewrite (G t (or_introl eq_refl) q Eq). reflexivity.
Qed.

Lemma inner_ok d a e : goods (decl_types d) -> g_inner res d a = Some e ->
  (exists p, implement_inner env crate_with crate_container_with d a = Parser p /\ forall i, p i = sem e i) /\
  longest_enum d a = false.
Proof.
  unfold g_inner, implement_inner, longest_enum, decl_types. intros G H.
  destruct (c_with a); [discriminate|]. destruct (d_data d) as [fs|vs|]; [| |discriminate].
  - split; [|reflexivity]. apply struct_ok; [|exact H]. intros t Ht. apply G. apply in_app_iff. right. exact Ht.
  - destruct (g_branches res d vs) as [[|e0 es]|] eqn:Eb; try discriminate.
    destruct (branches_ok d vs (e0 :: es)) as (ps & -> & Hps); [|exact Eb|].
    { intros t Ht. apply G. apply in_app_iff. right. exact Ht. }
    inversion Hps as [|p e1 ps' es1 Hp Hps']; subst.
    destruct (c_longest a); [discriminate|]. split; [|reflexivity].
    eexists. split; [reflexivity|]. inversion H; subst; clear H.
    pose proof (alt_ok _ _ Hps' p e0 Hp) as Ha. intros i.
    destruct (c_must_consume a); [|apply Ha]. cbn [CstDerive.sem]. unfold p_must_consume. rewrite Ha. reflexivity.
Qed.

Lemma derive_ok d e : goods (decl_types d) -> g_derive res d = Some e ->
  exists p, derive_parse env crate_with crate_container_with crate_cond d = Parser p /\ forall i, p i = sem e i.
Proof.
  unfold g_derive, derive_parse, container_of. intros G H.
  destruct (get_container (d_attrs d) _) as [a|] eqn:Ea; [|discriminate].
  destruct (g_inner res d a) as [e0|] eqn:Ei; [|discriminate]. cbn [obind] in H.
  destruct (inner_ok d a e0 G Ei) as ((p & -> & Hp) & El). rewrite El.
  assert (Ga : goods (c_after_nots a)).
  { intros t Ht. apply G. unfold decl_types. apply in_app_iff. left.
    destruct (get_container_after _ _ _ _ _ _ _ Ea t Ht) as [[]|X]. exact X. }
  destruct (c_post_conds a) as [|c [|c' cs]]; [| |discriminate].
  - eexists. split; [reflexivity|]. apply (after_ok _ Ga p e0); assumption.
  - destruct (cond_of c) as [pc|] eqn:Ec; [|discriminate]. cbn [obind] in H.
    eexists. split; [reflexivity|]. apply (after_ok _ Ga _ (GPost pc e0)); [|exact H].
    intros i. cbn. unfold check_post_conds. rewrite Hp. destruct (sem e0 i) as [|r v|x|x]; try reflexivity.
    cbn [forallb]. unfold crate_cond. rewrite Ec, andb_true_r. reflexivity.
Qed.

Lemma tys_ok l : forall es, goods l -> g_tys res l = Some es ->
  Forall2 (fun p e => forall i, p i = sem e i) (map env l) es.
Proof.
  induction l as [|t l IH]; intros es G H; cbn [g_tys map] in *.
  - inversion H; subst. constructor.
  - destruct (res t) as [e|] eqn:Et; [|discriminate]. cbn [obind] in H.
    destruct (g_tys res l) as [es'|]; [|discriminate]. cbn [obind] in H. inversion H; subst.
    constructor; [apply G; [left; reflexivity|exact Et]|]. apply IH; [|reflexivity]. intros u Hu. apply G. right. exact Hu.
Qed.

Lemma token_type_ok k n s e : goods [nm "Bu"; nm "Zei"; nm "Bahe"; TyOption (TyRef (nm "Indicators"))] ->
  g_token_type res k n s = Some e -> forall i, p_token_type env k n s i = sem e i.
Proof.
  unfold g_token_type. intros G H.
  destruct (res (nm "Bu")) as [bu|] eqn:E1; [|discriminate]. cbn [obind] in H.
  destruct (res (nm "Zei")) as [zei|] eqn:E2; [|discriminate]. cbn [obind] in H.
  destruct (res (nm "Bahe")) as [bahe|] eqn:E3; [|discriminate]. cbn [obind] in H.
  destruct (res (TyOption (TyRef (nm "Indicators")))) as [ind|] eqn:E4; [|discriminate]. cbn [obind] in H.
  inversion H; subst; clear H.
  pose proof (G _ (or_introl eq_refl) _ E1) as H1.
  pose proof (G _ (or_intror (or_introl eq_refl)) _ E2) as H2.
  pose proof (G _ (or_intror (or_intror (or_introl eq_refl))) _ E3) as H3.
  pose proof (G _ (or_intror (or_intror (or_intror (or_introl eq_refl)))) _ E4) as H4. clear G.
  assert (NA : forall p e, (forall i, p i = sem e i) ->
    forall i, p_not_after (p_not_after p (env (nm "Bu"))) (env (nm "Zei")) i = sem (GNotAfter (GNotAfter e bu) zei) i).
  { intros p e Hp i. cbn. unfold p_not_after. rewrite Hp. destruct (sem e i); try reflexivity.
    rewrite H1. destruct (sem bu rest); try reflexivity. rewrite H2. reflexivity. }
  assert (HB : forall i, p_many0 (env (nm "Bahe")) i = sem (GMany0 bahe) i).
  { intros i. apply (loop_ext KMany0 _ _ H3). }
  intros i. unfold p_token_type. destruct k.
  - cbn [CstDerive.sem]. unfold p_map. rewrite (NA _ (gtuple [GMany0 bahe; GTok s; ind])); [reflexivity|].
    apply tuple_ok. repeat constructor; assumption.
  - cbn [CstDerive.sem]. unfold p_map. rewrite (NA _ (gtuple [GMany0 bahe; GTok s])); [reflexivity|].
    apply tuple_ok. repeat constructor; assumption.
  - apply NA. reflexivity.
Qed.

Lemma impl_ok t e : goods (mentions t) -> g_impl res t = Some e ->
  exists p, impl env t = Parser p /\ forall i, p i = sem e i.
Proof.
  intros G H. destruct t as [n args|t|t|t|l]; cbn [g_impl impl mentions] in *.
  - destruct (String.eqb n "Token"). { inversion H; subst. eexists. split; [reflexivity|reflexivity]. }
    destruct (String.eqb n "Span"). { inversion H; subst. eexists. split; [reflexivity|reflexivity]. }
    destruct (String.eqb n "Bu"). { inversion H; subst. eexists. split; [reflexivity|reflexivity]. }
    destruct (String.eqb n "LohuSumti").
    { destruct (res (nm "Lohu")) as [a|] eqn:E1; [|discriminate]. cbn [obind] in H.
      destruct (res (nm "Token")) as [b|] eqn:E2; [|discriminate]. cbn [obind] in H.
      destruct (res (nm "Lehu")) as [c|] eqn:E3; [|discriminate]. cbn [obind] in H. inversion H; subst; clear H.
      pose proof (G _ (or_introl eq_refl) _ E1) as H1.
      pose proof (G _ (or_intror (or_introl eq_refl)) _ E2) as H2.
      pose proof (G _ (or_intror (or_intror (or_introl eq_refl))) _ E3) as H3.
      eexists. split; [reflexivity|]. intros i. unfold p_lohu_sumti, p_map. cbn [CstDerive.sem].
      unfold p_map. rewrite (tuple_ok _ [a; GCut (GManyTill b c)]); [reflexivity|].
      constructor; [exact H1|]. constructor; [|constructor].
      intros j. cbn [CstDerive.sem]. unfold p_cut, p_many_till. rewrite (till_ext _ _ _ _ H2 H3). reflexivity. }
    destruct (assoc n token_types) as [[k s]|].
    { eexists. split; [reflexivity|]. apply token_type_ok; assumption. }
    destruct (assoc n aliases) as [t|].
    { eexists. split; [reflexivity|]. apply G; [left; reflexivity|exact H]. }
    destruct (find_decl n) as [d|]; [|discriminate].
    destruct (instantiate d args) as [d'|]; [|discriminate]. cbn [obind] in H.
    apply derive_ok; assumption.
  - eexists. split; [reflexivity|]. apply G; [left; reflexivity|exact H].
  - discriminate.
  - destruct (res t) as [e0|] eqn:E0; [|discriminate]. cbn [obind] in H. inversion H; subst.
    eexists. split; [reflexivity|]. intros i. cbn. unfold p_opt. rewrite (G t (or_introl eq_refl) e0 E0). reflexivity.
  - destruct (g_tys res l) as [es|] eqn:E; [|discriminate]. cbn [obind] in H. inversion H; subst.
    eexists. split; [reflexivity|]. apply tuple_ok. apply tys_ok; assumption.
Qed.
End Agree.

(** * Every solution is the table's parser *)

Lemma all_cnts_complete n : In n all_cnts.
Proof. apply (nth_error_In all_cnts (cnt_idx n)). destruct n; reflexivity. Qed.

Lemma assoc_In {A} n (l : list (string * A)) a : assoc n l = Some a -> In (n, a) l.
Proof.
  unfold assoc. destruct (find _ l) as [[m b]|] eqn:E; [|discriminate]. cbn. intros H. inversion H; subst.
  apply find_some in E as [E1 E2]. cbn in E2. apply String.eqb_eq in E2. subst. exact E1.
Qed.

Lemma rule_names_ok n x : assoc n rule_names = Some x -> n = rule_name x.
Proof.
  intros H. apply assoc_In in H. unfold rule_names in H. apply in_map_iff in H as (y & E & _). congruence.
Qed.

Definition env_call (env : ty -> parser) (n : cnt) : parser := env (nm (rule_name n)).

Section Solution.
Context (env : ty -> parser).

(** equations for the types visited *)
Lemma resolve_ok (ok : ty -> Prop) :
  (forall t t', ok t -> In t' (mentions t) -> ok t') ->
  (forall t, ok t -> exists p, impl env t = Parser p /\ forall i, env t i = p i) ->
  forall k t e, resolve k t = Some e -> ok t -> forall i, env t i = sem (env_call env) e i.
Proof.
  intros Hstep Heq. induction k as [|k IH]; intros t e H Hok i; [discriminate|]. cbn [resolve] in H.
  destruct (match t with TyName n [] => assoc n rule_names | _ => None end) as [x|] eqn:En.
  - inversion H; subst. cbn [sem]. unfold env_call. destruct t as [n [|a args]|t|t|t|l]; try discriminate.
    apply rule_names_ok in En. subst. reflexivity.
  - destruct (impl_ok (env_call env) env (resolve k) t e) as (p & Ep & Hp); [|exact H|].
    { intros t' Ht' e' He' j. apply (IH t' e' He'). eapply Hstep; eassumption. }
    destruct (Heq t Hok) as (p' & Ep' & Hp'). rewrite Hp'. rewrite Ep in Ep'. inversion Ep'; subst. apply Hp.
Qed.
End Solution.

(** ** The types used all have expressions *)

Lemma get_field_types l : forall c ns an w c' ns' an' w',
  get_field l (mkfa c ns an w) = Some (mkfa c' ns' an' w') ->
  forall t, (In t (attr_types l) \/ In t ns \/ In t an) -> In t ns' \/ In t an'.
Proof.
  induction l as [|a l IH]; intros c ns an w c' ns' an' w' H t Ht; cbn [get_field] in H.
  - inversion H; subst. destruct Ht as [[]|Ht]. exact Ht.
  - destruct a; try discriminate.
    + apply (IH _ _ _ _ _ _ _ _ H). exact Ht.
    + destruct w; [discriminate|]. apply (IH _ _ _ _ _ _ _ _ H). exact Ht.
    + apply (IH _ _ _ _ _ _ _ _ H). rewrite in_app_iff. cbn in Ht |- *. intuition.
    + apply (IH _ _ _ _ _ _ _ _ H). rewrite in_app_iff. cbn in Ht |- *. intuition.
Qed.

Lemma get_container_types l : forall an w pc lg mc a,
  get_container l (mkca an w pc lg mc) = Some a ->
  forall t, (In t (attr_types l) \/ In t an) -> In t (c_after_nots a).
Proof.
  induction l as [|x l IH]; intros an w pc lg mc a H t Ht; cbn [get_container] in H.
  - inversion H; subst. destruct Ht as [[]|Ht]. exact Ht.
  - destruct x; try discriminate; try (apply (IH _ _ _ _ _ _ H); exact Ht).
    + destruct w; [discriminate|]. apply (IH _ _ _ _ _ _ H). exact Ht.
    + apply (IH _ _ _ _ _ _ H). rewrite in_app_iff. cbn in Ht |- *. intuition.
Qed.

Ltac ob H := match type of H with
  | obind ?o _ = Some _ => let x := fresh "x" in let E := fresh "E" in
      destruct o as [x|] eqn:E; [cbn [obind] in H|discriminate]
  end.

Section Resolved.
Context (res : ty -> option (gexp cnt)).
Notation has t := (exists e, res t = Some e).
Notation hass l := (forall t, In t l -> has t).

Lemma nots_has l : forall e e', g_nots res l e = Some e' -> hass l.
Proof.
  induction l as [|t l IH]; intros e e' H u Hu; [destruct Hu|]. cbn [g_nots] in H. ob H. ob H.
  destruct Hu as [<-|Hu]; [eauto|]. eapply IH; eassumption.
Qed.

Lemma element_has f e : g_element res f = Some e -> hass (field_types f).
Proof.
  unfold g_element, field_types, field_attrs_of. intros H.
  destruct (get_field (f_attrs f) (mkfa false [] [] None)) as [[cut nots an w]|] eqn:Ef; [|discriminate].
  pose proof (get_field_types _ _ _ _ _ _ _ _ _ Ef) as E0. apply get_field_spec in Ef as [E1 E2].
  destruct an; [|discriminate]. ob H. intros t [Ht|Ht].
  - destruct w as [w|].
    + destruct E2 as [[E2 _]|E2]; [discriminate|]. rewrite E2 in Ht. subst. ob E. eauto.
    + destruct E2 as [_ E2]. rewrite E2 in Ht. subst. eauto.
  - destruct (E0 t (or_introl Ht)) as [X|[]]. eapply nots_has; eassumption.
Qed.

Lemma elements_has l : forall es, g_elements res l = Some es -> hass (flat_map field_types l).
Proof.
  induction l as [|f l IH]; intros es H t Ht; [destruct Ht|]. cbn [g_elements] in H. ob H. ob H.
  cbn [flat_map] in Ht. apply in_app_iff in Ht as [Ht|Ht]; [eapply element_has; eassumption|eapply IH; [reflexivity|exact Ht]].
Qed.

Lemma struct_has d v fs mc e : g_struct res d v fs mc = Some e -> hass (flat_map field_types (fields_list fs)).
Proof.
  unfold g_struct. destruct fs as [l|l|]; [| |discriminate]; cbn [fields_list];
    (destruct (g_elements res l) as [es|] eqn:E; [|discriminate]); intros _; eapply elements_has; eassumption.
Qed.

Lemma branches_has d vs : forall es, g_branches res d vs = Some es ->
  hass (flat_map (fun v => flat_map field_types (fields_list (v_fields v))) vs).
Proof.
  induction vs as [|v vs IH]; intros es H t Ht; [destruct Ht|]. cbn [g_branches] in H.
  destruct (variant_attrs_of (v_attrs v)) as [mc|]; [|discriminate].
  assert (X : obind (g_struct res d (Some v) (v_fields v) mc) (fun e => obind (g_branches res d vs) (fun es => Some (e :: es))) = Some es).
  { destruct (v_fields v); [exact H|exact H|discriminate]. }
  ob X. ob X. cbn [flat_map] in Ht. apply in_app_iff in Ht as [Ht|Ht].
  - eapply struct_has; eassumption.
  - eapply IH; [reflexivity|exact Ht].
Qed.

Lemma after_has l : forall e e', g_after res l e = Some e' -> hass l.
Proof.
  induction l as [|t l IH]; intros e e' H u Hu; [destruct Hu|]. cbn [g_after] in H. ob H.
  destruct Hu as [<-|Hu]; [eauto|]. eapply IH; eassumption.
Qed.

Lemma derive_has d e : g_derive res d = Some e -> hass (decl_types d).
Proof.
  unfold g_derive, container_of. destruct (get_container (d_attrs d) _) as [a|] eqn:Ea; [|discriminate].
  intros H. ob H. intros t Ht. unfold decl_types in Ht. apply in_app_iff in Ht as [Ht|Ht].
  - pose proof (get_container_types _ _ _ _ _ _ _ Ea t (or_introl Ht)) as X.
    destruct (c_post_conds a) as [|c [|c' cs]]; [| |discriminate].
    + eapply after_has; eassumption.
    + ob H. eapply after_has; eassumption.
  - clear H. unfold g_inner in E. destruct (c_with a); [discriminate|]. destruct (d_data d) as [fs|vs|]; [| |destruct Ht].
    + eapply struct_has; eassumption.
    + destruct (g_branches res d vs) as [es|] eqn:Eb; [|discriminate]. eapply branches_has; eassumption.
Qed.

Lemma tys_has l : forall es, g_tys res l = Some es -> hass l.
Proof.
  induction l as [|t l IH]; intros es H u Hu; [destruct Hu|]. cbn [g_tys] in H. ob H. ob H.
  destruct Hu as [<-|Hu]; [eauto|]. eapply IH; [reflexivity|exact Hu].
Qed.

Lemma impl_has t e : g_impl res t = Some e -> hass (mentions t).
Proof.
  intros H. destruct t as [n args|t|t|t|l]; cbn [g_impl mentions] in *.
  - destruct (String.eqb n "Token"); [intros u []|]. destruct (String.eqb n "Span"); [intros u []|].
    destruct (String.eqb n "Bu"); [intros u []|]. destruct (String.eqb n "LohuSumti").
    { ob H. ob H. ob H. intros u [<-|[<-|[<-|[]]]]; eauto. }
    destruct (assoc n token_types) as [[k s]|].
    { unfold g_token_type in H. ob H. ob H. ob H. ob H. intros u [<-|[<-|[<-|[<-|[]]]]]; eauto. }
    destruct (assoc n aliases) as [t|]; [intros u [<-|[]]; eauto|].
    destruct (find_decl n) as [d|]; [|discriminate]. ob H. eapply derive_has; eassumption.
  - intros u [<-|[]]. eauto.
  - intros u [].
  - ob H. intros u [<-|[]]. eauto.
  - ob H. eapply tys_has; eassumption.
Qed.
End Resolved.

Section Mono.
Context (res res' : ty -> option (gexp cnt)).
Hypothesis M : forall t e, res t = Some e -> res' t = Some e.

Lemma nots_mono l : forall e e', g_nots res l e = Some e' -> g_nots res' l e = Some e'.
Proof.
  induction l as [|t l IH]; intros e e' H; cbn [g_nots] in *; [exact H|]. ob H. ob H.
  rewrite (M _ _ E), (IH _ _ E0). exact H.
Qed.

Lemma element_mono f e : g_element res f = Some e -> g_element res' f = Some e.
Proof.
  unfold g_element. destruct (field_attrs_of (f_attrs f)) as [[cut nots [|] w]|]; try discriminate.
  intros H. ob H. destruct w.
  - ob E. rewrite (M _ _ E0). cbn [obind]. rewrite E. cbn [obind]. apply nots_mono. exact H.
  - rewrite (M _ _ E). cbn [obind]. apply nots_mono. exact H.
Qed.

Lemma elements_mono l : forall es, g_elements res l = Some es -> g_elements res' l = Some es.
Proof.
  induction l as [|f l IH]; intros es H; cbn [g_elements] in *; [exact H|]. ob H. ob H.
  rewrite (element_mono _ _ E), (IH _ eq_refl). exact H.
Qed.

Lemma struct_mono d v fs mc e : g_struct res d v fs mc = Some e -> g_struct res' d v fs mc = Some e.
Proof.
  unfold g_struct. destruct fs as [l|l|]; [| |discriminate];
    (destruct (g_elements res l) as [es|] eqn:E; [|discriminate]); rewrite (elements_mono _ _ E); exact (fun H => H).
Qed.

Lemma branches_mono d vs : forall es, g_branches res d vs = Some es -> g_branches res' d vs = Some es.
Proof.
  induction vs as [|v vs IH]; intros es H; cbn [g_branches] in *; [exact H|].
  destruct (variant_attrs_of (v_attrs v)) as [mc|]; [|discriminate].
  destruct (v_fields v) as [l|l|]; [| |discriminate]; ob H; ob H; rewrite (struct_mono _ _ _ _ _ E), (IH _ eq_refl); exact H.
Qed.

Lemma after_mono l : forall e e', g_after res l e = Some e' -> g_after res' l e = Some e'.
Proof.
  induction l as [|t l IH]; intros e e' H; cbn [g_after] in *; [exact H|]. ob H. rewrite (M _ _ E). apply IH. exact H.
Qed.

Lemma inner_mono d a e : g_inner res d a = Some e -> g_inner res' d a = Some e.
Proof.
  unfold g_inner. destruct (c_with a); [discriminate|]. destruct (d_data d) as [fs|vs|]; [| |discriminate].
  - apply struct_mono.
  - destruct (g_branches res d vs) as [es|] eqn:E; [|discriminate]. rewrite (branches_mono _ _ _ E). exact (fun H => H).
Qed.

Lemma derive_mono d e : g_derive res d = Some e -> g_derive res' d = Some e.
Proof.
  unfold g_derive. destruct (container_of (d_attrs d)) as [a|]; [|discriminate]. intros H. ob H.
  rewrite (inner_mono _ _ _ E). cbn [obind]. destruct (c_post_conds a) as [|c [|c' cs]]; [| |discriminate].
  - apply after_mono. exact H.
  - ob H. apply after_mono. exact H.
Qed.

Lemma tys_mono l : forall es, g_tys res l = Some es -> g_tys res' l = Some es.
Proof.
  induction l as [|t l IH]; intros es H; cbn [g_tys] in *; [exact H|]. ob H. ob H. rewrite (M _ _ E), (IH _ eq_refl). exact H.
Qed.

Lemma impl_mono t e : g_impl res t = Some e -> g_impl res' t = Some e.
Proof.
  intros H. destruct t as [n args|t|t|t|l]; cbn [g_impl] in *.
  - destruct (String.eqb n "Token"); [exact H|]. destruct (String.eqb n "Span"); [exact H|].
    destruct (String.eqb n "Bu"); [exact H|]. destruct (String.eqb n "LohuSumti").
    { ob H. ob H. ob H. rewrite (M _ _ E), (M _ _ E0), (M _ _ E1). exact H. }
    destruct (assoc n token_types) as [[k s]|].
    { unfold g_token_type in *. ob H. ob H. ob H. ob H. rewrite (M _ _ E), (M _ _ E0), (M _ _ E1), (M _ _ E2). exact H. }
    destruct (assoc n aliases) as [t|]; [apply M; exact H|].
    destruct (find_decl n) as [d|]; [|discriminate]. ob H. cbn [obind]. apply derive_mono. exact H.
  - apply M. exact H.
  - exact H.
  - ob H. rewrite (M _ _ E). exact H.
  - ob H. rewrite (tys_mono _ _ E). exact H.
Qed.
End Mono.

Lemma resolve_mono k : forall t e, resolve k t = Some e -> resolve (S k) t = Some e.
Proof.
  induction k as [|k IH]; intros t e H; [discriminate|].
  cbn [resolve] in H. change (resolve (S (S k)) t) with
    (match (match t with TyName n [] => assoc n rule_names | _ => None end) with
     | Some n => Some (GCall n) | None => g_impl (resolve (S k)) t end).
  destruct (match t with TyName n [] => assoc n rule_names | _ => None end); [exact H|].
  eapply impl_mono; [|exact H]. exact IH.
Qed.

Lemma rule_impl n : g_impl (resolve 12) (nm (rule_name n)) = Some (crule n).
Proof. pose proof table_derived as H. rewrite Forall_forall in H. apply H. apply all_cnts_complete. Qed.

Lemma resolved_step t : (exists e, resolve 13 t = Some e) -> exists e, g_impl (resolve 12) t = Some e.
Proof.
  intros (e & H). change (resolve 13 t) with
    (match (match t with TyName n [] => assoc n rule_names | _ => None end) with
     | Some n => Some (GCall n) | None => g_impl (resolve 12) t end) in H.
  destruct (match t with TyName n [] => assoc n rule_names | _ => None end) as [x|] eqn:E; [|eauto].
  destruct t as [n [|a args]|t|t|t|l]; try discriminate. apply rule_names_ok in E. subst. eexists. apply rule_impl.
Qed.

Lemma used_resolved t : used t -> exists e, resolve 13 t = Some e.
Proof.
  induction 1 as [|t t' _ IH Hm]; [eexists; vm_compute; reflexivity|].
  apply resolved_step in IH as (e & He). destruct (impl_has _ _ _ He t' Hm) as (e' & He').
  exists e'. apply resolve_mono. exact He'.
Qed.

(** ** All the rules of the table are used *)

Fixpoint ty_eqb (a b : ty) : bool :=
  match a, b with
  | TyName n l, TyName m k =>
      String.eqb n m && (fix go (l k : list ty) := match l, k with
                         | [], [] => true
                         | x :: l', y :: k' => ty_eqb x y && go l' k'
                         | _, _ => false
                         end) l k
  | TyRef a, TyRef b | TySlice a, TySlice b | TyOption a, TyOption b => ty_eqb a b
  | TyTuple l, TyTuple k => (fix go (l k : list ty) := match l, k with
                         | [], [] => true
                         | x :: l', y :: k' => ty_eqb x y && go l' k'
                         | _, _ => false
                         end) l k
  | _, _ => false
  end.

Fixpoint ty_eqb_eq (a b : ty) {struct a} : ty_eqb a b = true -> a = b.
Proof.
  assert (L : forall l k, (fix go (l k : list ty) := match l, k with
                         | [], [] => true
                         | x :: l', y :: k' => ty_eqb x y && go l' k'
                         | _, _ => false
                         end) l k = true -> l = k) by
   (fix IHl 1; intros [|x l] [|y k]; intros H; try discriminate; [reflexivity|];
    apply andb_true_iff in H as [H1 H2]; apply ty_eqb_eq in H1; apply IHl in H2; subst; reflexivity).
  destruct a as [n l|a|a|a|l], b as [m k|b|b|b|k]; cbn [ty_eqb]; intros H; try discriminate.
  - apply andb_true_iff in H as [H1 H2]. apply String.eqb_eq in H1. apply L in H2. subst. reflexivity.
  - apply ty_eqb_eq in H. subst. reflexivity.
  - apply ty_eqb_eq in H. subst. reflexivity.
  - apply ty_eqb_eq in H. subst. reflexivity.
  - apply L in H. subst. reflexivity.
Qed.

Definition mem (t : ty) (l : list ty) : bool := existsb (ty_eqb t) l.

Fixpoint closure (k : nat) (todo done : list ty) : list ty :=
  match k with
  | O => done
  | S k' => match todo with
            | [] => done
            | t :: todo' => if mem t done then closure k' todo' done
                            else closure k' (mentions t ++ todo') (t :: done)
            end
  end.

Lemma closure_used k : forall todo done, (forall t, In t todo -> used t) -> (forall t, In t done -> used t) ->
  forall t, In t (closure k todo done) -> used t.
Proof.
  induction k as [|k IH]; intros todo done H1 H2; cbn [closure]; [exact H2|].
  destruct todo as [|t todo]; [exact H2|]. destruct (mem t done).
  - apply IH; [|exact H2]. intros u Hu. apply H1. right. exact Hu.
  - apply IH.
    + intros u Hu. apply in_app_iff in Hu as [Hu|Hu]; [|apply H1; right; exact Hu].
      eapply used_step; [apply H1; left; reflexivity|exact Hu].
    + intros u [<-|Hu]; [apply H1; left; reflexivity|apply H2; exact Hu].
Qed.

Lemma rules_reached :
  (let c := closure 4000 [nm "Root"] [] in forallb (fun n => mem (nm (rule_name n)) c) all_cnts) = true.
Proof. vm_compute. reflexivity. Qed.

Lemma used_rule n : used (nm (rule_name n)).
Proof.
  pose proof rules_reached as H. cbv zeta in H. rewrite forallb_forall in H. specialize (H n (all_cnts_complete n)).
  unfold mem in H. apply existsb_exists in H as (t & Ht & E). apply ty_eqb_eq in E. rewrite E.
  eapply closure_used; [| |exact Ht].
  - intros u [<-|[]]. constructor.
  - intros u [].
Qed.

(** ** Uniqueness *)

Lemma solution_call env : implements env -> forall k z i,
  (forall e i, grun crule k e i <> COut -> sem (env_call env) e i = grun crule k e i) ->
  grun crule k (crule z) i <> COut -> env_call env z i = grun crule k (crule z) i.
Proof.
  intros H k z i IH Ht. rewrite <- (IH _ _ Ht).
  destruct (impl_ok (env_call env) env (resolve 12) (nm (rule_name z)) (crule z)) as (p & Ep & Hp); [|apply rule_impl|].
  - intros t' Ht' e He j. apply (resolve_ok env used used_step H 12 t' e He).
    eapply used_step; [apply used_rule|exact Ht'].
  - destruct (H _ (used_rule z)) as (p' & Ep' & Hp'). unfold env_call. rewrite Hp'. rewrite Ep in Ep'. inversion Ep'; subst.
    apply Hp.
Qed.

Theorem solution_grun env : implements env -> forall t e, used t -> resolve 13 t = Some e ->
  forall n i, grun crule n e i <> COut -> env t i = grun crule n e i.
Proof.
  intros H t e Hu He n i Ht. rewrite (resolve_ok env used used_step H 13 t e He Hu).
  apply sem_grun; [|exact Ht]. apply solution_call. exact H.
Qed.

Lemma root_total toks : grun crule (cst_fuel toks) al_Root toks <> COut.
Proof.
  apply (grun_total crule cnn cne cnd CST_D cst_ok); [vm_compute; reflexivity|].
  unfold cst_fuel, CST_D. vm_compute need. lia.
Qed.

Theorem solution_parse env : implements env -> forall toks, parse_root env toks = cst_parse toks.
Proof.
  intros H toks. unfold parse_root, cst_parse.
  rewrite (solution_grun env H (nm "Root") al_Root used_root) with (n := cst_fuel toks);
    [reflexivity|vm_compute; reflexivity|apply root_total].
Qed.

(** ** Existence *)

Lemma rule_total z i : grun crule (cst_fuel i) (GCall z) i <> COut.
Proof.
  apply (grun_total crule cnn cne cnd CST_D cst_ok).
  - destruct z; vm_compute; reflexivity.
  - unfold cst_fuel. assert (need cnn cnd (GCall z) <= CST_D)%nat by (destruct z; vm_compute; lia). nia.
Qed.

Definition the_call (z : cnt) : parser := fun i => grun crule (cst_fuel i) (GCall z) i.

Definition the_env (t : ty) : parser :=
  match resolve 13 t with Some e => sem the_call e | None => fun _ => COut end.

Lemma the_call_ok k z i : grun crule k (crule z) i <> COut -> the_call z i = grun crule k (crule z) i.
Proof.
  intros H. unfold the_call. change (grun crule k (crule z) i) with (grun crule (S k) (GCall z) i).
  apply grun_agree; [apply rule_total|exact H].
Qed.

Lemma cst_fuel_S i : exists k, cst_fuel i = S k.
Proof. unfold cst_fuel, CST_D. exists (Nat.pred (140 * S (List.length i)))%nat. lia. Qed.

Theorem the_env_implements : implements the_env.
Proof.
  intros t Hu. destruct (used_resolved t Hu) as (e & He).
  destruct (resolved_step t (ex_intro _ e He)) as (e1 & He1).
  destruct (impl_ok the_call the_env (resolve 12) t e1) as (p & Ep & Hp); [|exact He1|].
  { intros t' _ e' He' i. unfold the_env. rewrite (resolve_mono _ _ _ He'). reflexivity. }
  exists p. split; [exact Ep|]. intros i. rewrite Hp. unfold the_env. rewrite He.
  change (resolve 13 t) with
    (match (match t with TyName n [] => assoc n rule_names | _ => None end) with
     | Some n => Some (GCall n) | None => g_impl (resolve 12) t end) in He.
  destruct (match t with TyName n [] => assoc n rule_names | _ => None end) as [x|] eqn:E; [|congruence].
  destruct t as [n [|a args]|t|t|t|l]; try discriminate. apply rule_names_ok in E. subst.
  change (TyName (rule_name x) []) with (nm (rule_name x)) in He1. rewrite rule_impl in He1. inversion He1; subst e1.
  inversion He; subst e. cbn [sem]. destruct (cst_fuel_S i) as (k & Ek).
  assert (Hk : grun crule k (crule x) i <> COut).
  { pose proof (rule_total x i) as X. rewrite Ek in X. exact X. }
  rewrite (sem_grun the_call) with (n := k); [|intros k0 z j _; apply the_call_ok|exact Hk].
  apply the_call_ok. exact Hk.
Qed.
