(** SpecCst.v -- vocabulary of the statements about the parser; specification
    only.  It refers to the code only through the API: [cst_parse], the
    [TreeNode] trait ([children], [start_location], ...), and tokens. *)
From Verif Require Import Base Span Selmaho Lex Cst CstApi.

Definition accepted (toks : list token) : Prop := exists root, cst_parse toks = Ret (inl root).
Definition rejected (toks : list token) : Prop := exists e, cst_parse toks = Ret (inr e).

(** Walking through the tree with [for_each_child], in pre-order. *)
Inductive visits : val -> list val -> Prop :=
| visit v ls : Forall2 visits (children v) ls -> visits v (v :: List.concat ls).

(** A node that stands for a word: no children, but a place in the text. *)
Definition is_leaf (v : val) : bool :=
  match children v, start_location v with [], Some _ => true | _, _ => false end.

(** [v] shows the token [t]. *)
Definition shows (v : val) (t : token) : Prop :=
  v = VTok t \/ exists name, In name ["ZoiDelimiter"; "ZoiText"]%string /\ v = VSpan name (tspan t).

(** Extent of some consecutive tokens. *)
Definition first_start (m : list token) : option N :=
  match m with [] => None | t :: _ => Some (sp_start (tspan t)) end.
Fixpoint last_end (m : list token) : option N :=
  match m with [] => None | [t] => Some (sp_end (tspan t)) | _ :: m' => last_end m' end.

(** [v] shows exactly the tokens [m]: a leaf shows its token, and the children
    of a node show consecutive parts. *)
Inductive stands_for : val -> list token -> Prop :=
| stands_leaf v t : children v = [] -> shows v t -> stands_for v [t]
| stands_node v parts : ~ (exists t, shows v t) -> Forall2 stands_for (children v) parts ->
    stands_for v (List.concat parts).

Definition contains (s : Selmaho) (toks : list token) : Prop := exists t, In t toks /\ selmaho t = s.

(** Words that quote the word after them, the word before them, or both. *)
Definition quoting : list Selmaho := [S_Zo; S_Zoi; S_Lohu; S_Bu; S_Zei].
Definition quotes (toks : list token) : Prop := exists s, In s quoting /\ contains s toks.

(** Number of tokens of the given classes. *)
Definition number_of (l : list Selmaho) (toks : list token) : nat :=
  List.length (filter (fun t => existsb (sel_eqb (selmaho t)) l) toks).

(** * Printing *)

(** Following only children, from [v] to the first node that has none or several. *)
Inductive tip : val -> val -> Prop :=
| tip_here v : (forall c, children v <> [c]) -> tip v v
| tip_down v c w : children v = [c] -> tip c w -> tip v w.

(** The nodes printed, with their indentation: pre-order, and with [collapse]
    every node is replaced by its [tip]. *)
Inductive prints (collapse : bool) : N -> val -> list (N * val) -> Prop :=
| print_one level v0 v ls : (if collapse then tip v0 v else v = v0) ->
    Forall2 (prints collapse (level + 2)) (children v) ls ->
    prints collapse level v0 ((level, v) :: List.concat ls).

(** [l] is the right line for a node: indentation, name, star, and, if the node
    shows any tokens, the text from the start of the first to the end of the last. *)
Definition line_for (input : str) (toks : list token) (n : N * val) (l : line) : Prop :=
  l_level l = fst n /\ l_name l = node_name (snd n) /\ l_star l = node_experimental (snd n) /\
  exists m, stands_for (snd n) m /\ (exists p q, toks = p ++ m ++ q) /\
    match first_start m, last_end m with
    | Some a, Some b => exists w, span_slice (mkspan a b) input = Some w /\ l_text l = Some (mkspan a b, w)
    | _, _ => m = [] /\ l_text l = None
    end.

(** * Token lists that differ only in spans and flags *)

Definition same_class (a b : token) : Prop := selmaho a = selmaho b.

(** Two trees made alike from such tokens. *)
Inductive same_shape : val -> val -> Prop :=
| ss_tok t u : same_class t u -> same_shape (VTok t) (VTok u)
| ss_span name a b : same_shape (VSpan name a) (VSpan name b)
| ss_node name l l' : Forall2 same_shape l l' -> same_shape (VNode name l) (VNode name l')
| ss_pass l l' : Forall2 same_shape l l' -> same_shape (VPass l) (VPass l').

(** Two errors at the same place with the same message. *)
Definition same_error (x y : werror) : Prop :=
  Forall2 same_class (location x) (location y) /\
  match cerr x, cerr y with
  | ExpectedGot l None, ExpectedGot l' None => l = l'
  | ExpectedGot l (Some t), ExpectedGot l' (Some u) => l = l' /\ same_class t u
  | ExpectedGot _ _, _ | _, ExpectedGot _ _ => False
  | a, b => a = b
  end.

(** * Which classes occur where (texts without quoting words) *)

(** Classes the parser knows no use for: the erasers si, sa, su, all experimental
    constructs, and tokens that are not words of the language. *)
Definition unusable : list Selmaho :=
 [S_Sa; S_Si; S_Su; S_Bahei; S_Beihe; S_Boihoi; S_Boihohu; S_Cahei; S_Ceheihoi; S_Cohai; S_Cohehohe;
  S_Cohuho; S_Cuhau; S_Dauho; S_Dehai; S_Dehau; S_Dohoi; S_Fauha; S_Fahoho; S_Fihoi; S_Foihe; S_Gahuhau;
  S_Gehuhi; S_Gihei; S_Gihoi; S_Gohoi; S_Ihau; S_Jaiha; S_Jaihi; S_Jauhu; S_Jahoi; S_Jihoi; S_Joihi; S_Johe;
  S_Juhau; S_Juhei; S_Juhuhi; S_Kauhai; S_Kauhu; S_Keihau; S_Keihi; S_Kehai; S_Kehei; S_Keheiha; S_Kehehau;
  S_Kehehu; S_Kehuhi; S_Kuhau; S_Kuhei; S_Kuhoihu; S_Kyhoi; S_Lehai; S_Lihau; S_Lihei; S_Lohai; S_Lohoi;
  S_Luhei; S_Mauhau; S_Mauhe; S_Mauho; S_Meihe; S_Meiho; S_Mehoi; S_Muhoi; S_Muhohu; S_Neihai; S_Noiha;
  S_Noihau; S_Noihahu; S_Noihi; S_Nohoi; S_Rauho; S_Rehaihe; S_Sauhu; S_Sahau; S_Sahoi; S_Seihau; S_Seiho;
  S_Sehehi; S_Sehoihoi; S_Sihihei; S_Sihihoi; S_Sihoi; S_Soihi; S_Sohehai; S_Sohoi; S_Taihu; S_Tauho;
  S_Tahoi; S_Tahuhi; S_Teihu; S_Tehoihoi; S_Toihe; S_Toiho; S_Vauhehoi; S_Vauhohoi; S_Vuhoi; S_Vyhy; S_Xauhe;
  S_Xauheho; S_Xauho; S_Xauhoi; S_Xauhoho; S_Xahoihahoiha; S_Xehau; S_Xoi; S_Xoha; S_Xohehohe; S_Xohi;
  S_Xuhau; S_Yhi; S_Zaihai; S_Zaihu; S_Zauhehu; S_Zeihei; S_Zeihoi; S_Ziheha; S_Zihehau; S_Zihoi; S_Zoihai;
  S_Zoihohe; S_Zohau; S_Zohehu; S_Zohiho; S_Zohoi; S_UnknownCmavo; S_AnyText; S_ZoiDelimiter].

(** Classes that need something after them: no text ends with one. *)
Definition never_last : list Selmaho :=
 [S_Bahe; S_Be; S_Bei; S_Bihe; S_Cei; S_Cehe; S_Co; S_Cu; S_Fa; S_Fehe; S_Fiho; S_Fuha; S_Fuhe; S_Ga; S_Goi;
  S_Guha; S_Jai; S_Johi; S_Ke; S_La; S_Lau; S_Lahe; S_Le; S_Li; S_Maho; S_Me; S_Mohe; S_Mohi; S_Nahe; S_Nahu;
  S_Nihe; S_Noi; S_Nu; S_Nuha; S_Pehe; S_Peho; S_Se; S_Soi; S_Tei; S_Vei; S_Vuho; S_Xi; S_Zihe].

(** Classes that need something before them: no text begins with one. *)
Definition never_first : list Selmaho :=
 [S_Be; S_Bei; S_Beho; S_Bihe; S_Bo; S_Boi; S_Cei; S_Cehe; S_Co; S_Dohu; S_Fehu; S_Foi; S_Fuha; S_Gehu; S_Gi;
  S_Goi; S_Johi; S_Kei; S_Kehe; S_Ku; S_Kuhe; S_Kuho; S_Lihu; S_Loho; S_Luhu; S_Mai; S_Maho; S_Mehu; S_Moi;
  S_Mohe; S_Nahu; S_Nihe; S_Noi; S_Nuhu; S_Pehe; S_Peho; S_Raho; S_Roi; S_Sehu; S_Tehu; S_Toi; S_Tuhu; S_Vau;
  S_Veho; S_Vuho; S_Vuhu; S_Zihe; S_Cmevla].

(** le'u only ends a lo'u quote. *)
Definition ordinary (s : Selmaho) : Prop := ~ In s quoting /\ s <> S_Lehu /\ ~ In s unusable.

(** Terminators with the words they terminate, and how many terminators one
    such word can have. *)
Definition terminators : list (Selmaho * list Selmaho * nat) :=
 [(S_Kuho, [S_Noi], 1); (S_Kei, [S_Nu], 1); (S_Lihu, [S_Lu], 1); (S_Toi, [S_To], 1); (S_Beho, [S_Be], 1);
  (S_Gehu, [S_Goi], 1); (S_Fehu, [S_Fiho], 1); (S_Mehu, [S_Me], 1); (S_Loho, [S_Li], 1); (S_Luhu, [S_Lahe; S_Nahe], 1);
  (S_Tehu, [S_Nihe; S_Mohe; S_Johi; S_Maho; S_Nahu], 1); (S_Veho, [S_Vei], 1); (S_Kehe, [S_Ke], 1); (S_Tuhu, [S_Tuhe], 1);
  (S_Nuhu, [S_Nuhi], 2); (S_Sehu, [S_Sei; S_Soi], 1); (S_Dohu, [S_Coi; S_Doi], 1); (S_Foi, [S_Tei], 1)]%nat.

(** [a] ends with a word of one of these classes. *)
Definition ends_in (l : list Selmaho) (a : list token) : Prop := exists p t, a = p ++ [t] /\ In (selmaho t) l.

(** [b] makes the word before it part of a longer one: it continues with bu or
    zei, after any number of ba'e. *)
Definition taken_up (b : list token) : Prop :=
  exists x t y, b = x ++ t :: y /\ (forall w, In w x -> selmaho w = S_Bahe) /\ In (selmaho t) [S_Bu; S_Zei].

(** No experimental word among the three tokens after a zoi. *)
Definition quotes_plain (toks : list token) : Prop :=
  forall p z d1 t d2 q, toks = p ++ z :: d1 :: t :: d2 :: q -> selmaho z = S_Zoi ->
    experimental d1 = false /\ experimental t = false /\ experimental d2 = false.

(** Every zoi starts a quote that has a text. *)
Definition quotes_texts (toks : list token) : Prop :=
  forall p z q, toks = p ++ z :: q -> selmaho z = S_Zoi ->
    exists d1 t d2 r, q = d1 :: t :: d2 :: r /\ selmaho d1 = S_ZoiDelimiter /\ selmaho t = S_AnyText /\ selmaho d2 = S_ZoiDelimiter.
