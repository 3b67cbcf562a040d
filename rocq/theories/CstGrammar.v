(** CstGrammar.v -- the parser accepts everything the grammar of SpecGrammar.v generates. *)
From Verif Require Import Base Selmaho Lex Cst CstRules CstApi CstMeta CstTotal SpecCst CstTree CstBalance CstThms CstSimp SpecGen SpecGrammar CstGen.
From Coq Require Import Lia Arith.

Scheme Equality for part.

(** the words of the grammar *)
Definition words_of (w : list (sym part)) : list Selmaho := flat_map (fun x => match x with Word s => [s] | _ => [] end) w.
Definition add_new {A} (eqb : A -> A -> bool) (l : list A) (x : A) : list A := if anyb (eqb x) l then l else x :: l.
Definition uniq {A} (eqb : A -> A -> bool) (l : list A) : list A := fold_left (add_new eqb) l [].
Definition P_words : list Selmaho := Eval vm_compute in uniq sel_eqb (flat_map (fun a => flat_map words_of (productions a)) all_parts).
Definition P_sg (s : Selmaho) : bool := mem P_words s.
Definition P_st : list (status * bool) := Eval vm_compute in st_table P_sg 40.
Definition P_rx : list rx := Eval vm_compute in rx_table P_sg P_st.
Lemma P_rx_table : P_rx = rx_table P_sg P_st.
Proof. vm_cast_no_check (eq_refl P_rx). Qed.
Lemma P_ok : table_ok P_sg P_st P_rx = true.
Proof. vm_cast_no_check (eq_refl true). Qed.
Definition P_root : rx := Eval vm_compute in simp P_sg (st_of P_st) (cf_of P_st) al_Root.
Lemma P_root_ok : simp P_sg (st_of P_st) (cf_of P_st) al_Root = P_root.
Proof. vm_cast_no_check (eq_refl P_root). Qed.

(** computing what constructs start with and what follows them *)
Definition deep_words : list Selmaho := [S_I; S_A; S_Joi; S_Na; S_Se; S_Nahe; S_Pu; S_Bai; S_Zaho; S_Caha; S_Ja; S_Zi; S_Va; S_Faha; S_Tahe; S_Zeha; S_Ki; S_Cuhe].
Definition depth : nat := 4.
Definition lk {A} (d : A) (tb : list (part * A)) (a : part) : A := match find (fun x => part_beq (fst x) a) tb with Some (_, v) => v | None => d end.
Definition look_eqb (a b : look) : bool := l_eqb (fst a) (fst b) &&& Bool.eqb (snd a) (snd b).
Definition size (tb : list (part * list look)) : nat := fold_left (fun n x => (n + List.length (snd x))%nat) tb O.
Fixpoint settle (n : nat) (f : list (part * list look) -> list (part * list look)) (tb : list (part * list look)) : list (part * list look) :=
  match n with O => tb | S n => let tb' := f tb in if Nat.eqb (size tb) (size tb') then tb' else settle n f tb' end.
(** only the parts around connected sentences need more than three words *)
Definition coarse (a : part) (o : look) : look :=
  if anyb (part_beq a) [CuTail; Tensed; TensedSimple; TensedSelbri] then cut 2 (fst o) (snd o)
  else if anyb (part_beq a) [Joint; Conn; Items; Item; Attached; BoJoined] then o else cut 3 (fst o) (snd o).
Definition P_fs : list (part * list look) := Eval vm_compute in
  settle 40 (fun tb => map (fun a => (a, uniq look_eqb (map (coarse a) (flat_map (fun p => firsts (lk [] tb) deep_words depth [([], true)] p) (productions a))))) all_parts) [].
Fixpoint suffixes_at (a : part) (w : list (sym part)) : list (list (sym part)) :=
  match w with [] => [] | x :: w => (match x with Part b => if part_beq a b then [w] else [] | _ => [] end) ++ suffixes_at a w end.
(** only the parts around sentences need to know what comes after .i and tags *)
Fixpoint until_i (l : list Selmaho) : option (list Selmaho) :=
  match l with [] => None | x :: l => if mem [S_I; S_Pu; S_Bai; S_Zaho; S_Caha; S_Ja; S_Zi; S_Va; S_Faha; S_Tahe; S_Zeha; S_Ki; S_Cuhe] x then Some [x] else match until_i l with Some l => Some (x :: l) | None => None end end.
Definition weaken (a : part) (o : look) : look :=
  if anyb (part_beq a) [Items; Item; Attached; Joint; Statement; BoJoined] then o else match until_i (fst o) with Some l => cut 3 l false | None => cut 3 (fst o) (snd o) end.
Definition P_fol : list (part * list look) := Eval vm_compute in
  settle 40 (fun tb => map (fun a => (a, uniq look_eqb (map (weaken a) ((if part_beq a Text then [([], true)] else []) ++
    flat_map (fun b => flat_map (fun p => flat_map (fun w => firsts (lk [] P_fs) deep_words depth (lk [] tb b) w) (suffixes_at a p)) (productions b)) all_parts)))) all_parts) [].

Definition snd_of (e : rx) : rx := match e with XSeq _ b | XAlt _ b => b | _ => e end.
Definition fst_of (e : rx) : rx := match e with XSeq a _ | XAlt a _ => a | _ => e end.
Definition R (x : cnt) : rx := rx_of P_rx x.
Definition P_ex (a : part) : rx :=
  match a with
  | Text => XCall G_Text
  | Paragraphs => XLoop (XSeq (XCall G_ParagraphSeparator) (XCall G_Paragraph))
  | Paragraph => XCall G_Paragraph
  | Items => XLoop (XSeq (XCall G_SentenceSeparator) (XCall G_ParagraphItem))
  | Item => XCall G_ParagraphItem
  | Attached => XLoop (XSeq (XCall G_CloseSentenceSeparator) (XCall G_Sentences3))
  | Statement => XCall G_Sentences3
  | Sentence => XCall G_Sentence
  | Bridi => XCall G_Subsentence
  | Bridi1 => XSeq (XCall G_Args) (XCall G_SentenceTail)
  | Tail => XCall G_SentenceTail1
  | CuTail => XCall G_SentenceTail1
  | Tensed => XCall G_SentenceTail1
  | MoreTails => XLoop (XSeq (XCall G_SentenceTail2Connective) (XCall G_SentenceTail3))
  | Gihek => XCall G_Gihek
  | Simple => XCall G_SentenceTail4
  | KelessTail => XCall G_SentenceTail4
  | Brivla => XCall G_TanruUnit1
  | Terms => XLoop (XCall G_Arg)
  | OpenTerms => XLoop (XCall G_Arg)
  | NuTerms => XLoop (XCall G_Arg)
  | Term => XCall G_Arg
  | Tag => fst_of (R G_Tag)
  | Sumti => XCall G_Sumti
  | Connected => snd_of (R G_Sumti1)
  | Ek => XCall G_JoikEk
  | Operand => XCall G_Sumti3
  | Plain => XCall G_Sumti4
  | Base => XCall G_SumtiComponent1
  | Relative => XCall G_RelativeClauses
  | MoreRelative => snd_of (R G_RelativeClauses)
  | Clause => XCall G_RelativeClause
  | MoreNames => XLoop (XTok S_Cmevla)
  | Quantifier => XCall G_Quantifier
  | Number => XCall G_Number
  | Digits => XLoop (XCall G_NumberRest)
  | Selbri => XCall G_Selbri
  | TensedSelbri => XCall G_Selbri
  | Befores => XLoop (XCall G_SelbriBefore)
  | MoreCo => snd_of (R G_Selbri1)
  | Tanru => XCall G_Selbri2
  | MoreJoined => XLoop (XCall G_Selbri3)
  | Joined => XCall G_Selbri3
  | Conn => snd_of (R G_Selbri3)
  | Jek => XCall G_JoikJek
  | Bonded => XCall G_Selbri6
  | MoreBo => snd_of (R G_Selbri6)
  | Unit => XCall G_TanruUnit1
  | Prefixes => XLoop (XCall G_BeforeTanruUnit)
  | Core => XCall G_TanruUnit2
  | Links => XLoop (XSeq (XTok S_Bei) (XCall G_Arg))
  | TaggedTerms => XLoop (XCall G_Arg)
  | Alternatives => XLoop (XCall G_Sumti3ConnectedPre)
  | NextTail => XCall G_SentenceTail4
  | Joint => snd_of (snd_of (R G_Sentences1))
  | TensedSimple => XCall G_SentenceTail4
  | Open => XCall G_Arg
  | MoreTerms => XLoop (XCall G_Arg)
  | OpenSumti => XCall G_Sumti
  | OpenConnected => snd_of (R G_Sumti1)
  | MoreConnected => snd_of (R G_Sumti1)
  | OpenOperand => XCall G_Sumti3
  | BeSelbri => XCall G_Selbri
  | BeUnit => XCall G_Selbri3
  | BeTanru => XLoop (XCall G_Selbri3)
  | BoOperands => snd_of (fst_of (R G_Sumti1))
  | BoJoined => snd_of (R G_Selbri4)
  end.

Definition P_follows : part -> list look := lk [] P_fol.
Definition P_starts : part -> list look := lk [] P_fs.
Definition P_peek (e : rx) : bool := true.
Definition P_split (e : rx) : bool := match e with XCall x => existsb (fun y => Nat.eqb (cnt_idx x) (cnt_idx y)) [G_Prenex] | XSeq _ _ => true | _ => false end.
Definition P_eager (e : rx) (a : part) : bool := rx_eqb e (XCall G_Prenex) &&& anyb (part_beq a) [Bridi1; Sentence; Statement].
(** the constructs that are rules of the parser of their own *)
Definition P_whole (a : part) : bool := match P_ex a with XCall _ => true | _ => false end.
Definition P_xc (a : part) : cnt := match P_ex a with XCall x => x | _ => G_Text end.
Lemma P_xc_ok a : P_whole a = true -> P_ex a = XCall (P_xc a).
Proof. unfold P_whole, P_xc. destruct (P_ex a); (discriminate || reflexivity). Qed.
Definition P_prod_ok := prod_ok productions P_starts P_follows deep_words depth P_ex (rx_of P_rx) part_beq P_peek P_split P_eager P_whole.
Lemma P_first : first_ok productions P_starts deep_words depth all_parts = true.
Proof. vm_cast_no_check (eq_refl true). Qed.
Lemma P_check : all_ok productions P_starts P_follows deep_words depth P_ex (rx_of P_rx) part_beq P_peek P_split P_eager P_whole all_parts 120 2 = true.
Proof. vm_cast_no_check (eq_refl true). Qed.
Lemma all_parts_complete a : In a all_parts.
Proof. destruct a; unfold all_parts; repeat (left; reflexivity) || right; repeat (first [left; reflexivity|right]). Qed.
Lemma words_listed : forallb (fun a => forallb (fun p => forallb P_sg (words_of p)) (productions a)) all_parts = true.
Proof. vm_cast_no_check (eq_refl true). Qed.
Lemma generated_words w m : gens productions w m -> forallb P_sg (words_of w) = true -> Forall (fun t => P_sg (selmaho t) = true) m.
Proof.
  induction 1 as [|s t w m E _ IH|a p w m1 m2 Hp _ IH1 _ IH2]; intros H; [constructor| |].
  - cbn [words_of flat_map app forallb] in H. apply andb_true_iff in H as [H1 H2]. constructor; [congruence|apply IH, H2].
  - apply Forall_app. split; [|apply IH2, H]. apply IH1. pose proof words_listed as W. rewrite forallb_forall in W. specialize (W a (all_parts_complete a)).
    rewrite forallb_forall in W. exact (W p Hp).
Qed.
Theorem generated toks : gens productions [Part Text] toks -> accepted toks.
Proof.
  intros G. assert (Ho : Forall (fun t => P_sg (selmaho t) = true) toks) by (eapply generated_words; [exact G|reflexivity]).
  destruct (table_accepts _ _ _ _ P_rx_table P_ok P_root_ok _ Ho) as [A _]. apply A.
  pose proof (gen_sound productions P_starts P_follows deep_words depth P_ex (rx_of P_rx) part_beq P_peek P_split P_eager P_whole all_parts all_parts_complete P_first internal_part_dec_bl 120 2 P_check Text toks [] G) as Hx.
  rewrite app_nil_r in Hx. apply Hx. exists ([], true). split; [vm_compute; auto|reflexivity].
Qed.
Theorem visited b pre m post : phrase productions [Part Text] b pre m post -> P_whole b = true ->
  V (rx_of P_rx) (XCall G_Text) (pre ++ m ++ post) (P_xc b) (m ++ post) post.
Proof.
  intros G Hb. pose proof (gen_parts productions P_starts P_follows deep_words depth P_ex (rx_of P_rx) part_beq P_peek P_split P_eager P_whole all_parts all_parts_complete P_first internal_part_dec_bl P_xc P_xc_ok 120 2 P_check Text b pre m post [] G) as Hx.
  rewrite !app_nil_r in Hx. apply Hx; [reflexivity|exact Hb|]. exists ([], true). split; [vm_compute; auto|reflexivity].
Qed.
Print Assumptions generated.
Print Assumptions visited.
