(** Selmaho.v -- the enum [Selmaho] (/repo/src/lex/selmaho/mod.rs:15-280), its
    [is_fundamentally_experimental] (mod.rs:297-552) and [as_repr]
    (/repo/src/lex/selmaho/display.rs:34-294).  Constructors are in source order;
    [S_X] is the Rust [Selmaho::X].  No proofs in this file. *)
From Verif Require Import Base.

(** mod.rs:15-280 *)
Inductive Selmaho : Type :=
| S_A | S_Bai | S_Bahe | S_Be | S_Bei | S_Beho | S_Bihe | S_Bihi | S_Bo |
S_Boi | S_Bu | S_By | S_Cai | S_Caha | S_Cei | S_Cehe | S_Co | S_Coi | S_Cu |
S_Cuhe | S_Daho | S_Doi | S_Dohu | S_Fa | S_Faha | S_Faho | S_Fehe | S_Fehu |
S_Fiho | S_Foi | S_Fuha | S_Fuhe | S_Fuho | S_Ga | S_Gaho | S_Gehu | S_Gi |
S_Giha | S_Goi | S_Goha | S_Guha | S_I | S_Ja | S_Jai | S_Joi | S_Johi | S_Ke
| S_Kei | S_Kehe | S_Ki | S_Koha | S_Ku | S_Kuhe | S_Kuho | S_La | S_Lau |
S_Lahe | S_Le | S_Lehu | S_Li | S_Lihu | S_Loho | S_Lohu | S_Lu | S_Luhu |
S_Mai | S_Maho | S_Me | S_Mehu | S_Moi | S_Mohe | S_Mohi | S_Na | S_Nai |
S_Nahe | S_Nahu | S_Nihe | S_Niho | S_Noi | S_Nu | S_Nuha | S_Nuhi | S_Nuhu |
S_Pa | S_Pehe | S_Peho | S_Pu | S_Raho | S_Roi | S_Sa | S_Se | S_Sei | S_Sehu
| S_Si | S_Soi | S_Su | S_Tahe | S_Tei | S_Tehu | S_To | S_Toi | S_Tuhe |
S_Tuhu | S_Ui | S_Va | S_Vau | S_Vei | S_Veha | S_Veho | S_Viha | S_Vuho |
S_Vuhu | S_Xi | S_Y | S_Zaho | S_Zei | S_Zeha | S_Zi | S_Zihe | S_Zo | S_Zoi |
S_Zohu | S_Bahei | S_Beihe | S_Boihoi | S_Boihohu | S_Cahei | S_Ceheihoi |
S_Cohai | S_Cohehohe | S_Cohuho | S_Cuhau | S_Dauho | S_Dehai | S_Dehau |
S_Dohoi | S_Fauha | S_Fahoho | S_Fihoi | S_Foihe | S_Gahuhau | S_Gehuhi |
S_Gihei | S_Gihoi | S_Gohoi | S_Ihau | S_Jaiha | S_Jaihi | S_Jauhu | S_Jahoi |
S_Jihoi | S_Joihi | S_Johe | S_Juhau | S_Juhei | S_Juhuhi | S_Kauhai | S_Kauhu
| S_Keihau | S_Keihi | S_Kehai | S_Kehei | S_Keheiha | S_Kehehau | S_Kehehu |
S_Kehuhi | S_Kuhau | S_Kuhei | S_Kuhoihu | S_Kyhoi | S_Lehai | S_Lihau |
S_Lihei | S_Lohai | S_Lohoi | S_Luhei | S_Mauhau | S_Mauhe | S_Mauho | S_Meihe
| S_Meiho | S_Mehoi | S_Muhoi | S_Muhohu | S_Neihai | S_Noiha | S_Noihau |
S_Noihahu | S_Noihi | S_Nohoi | S_Rauho | S_Rehaihe | S_Sauhu | S_Sahau |
S_Sahoi | S_Seihau | S_Seiho | S_Sehehi | S_Sehoihoi | S_Sihihei | S_Sihihoi |
S_Sihoi | S_Soihi | S_Sohehai | S_Sohoi | S_Taihu | S_Tauho | S_Tahoi |
S_Tahuhi | S_Teihu | S_Tehoihoi | S_Toihe | S_Toiho | S_Vauhehoi | S_Vauhohoi
| S_Vuhoi | S_Vyhy | S_Xauhe | S_Xauheho | S_Xauho | S_Xauhoi | S_Xauhoho |
S_Xahoihahoiha | S_Xehau | S_Xoi | S_Xoha | S_Xohehohe | S_Xohi | S_Xuhau |
S_Yhi | S_Zaihai | S_Zaihu | S_Zauhehu | S_Zeihei | S_Zeihoi | S_Ziheha |
S_Zihehau | S_Zihoi | S_Zoihai | S_Zoihohe | S_Zohau | S_Zohehu | S_Zohiho |
S_Zohoi | S_Gismu | S_Fuhivla | S_Lujvo | S_Cmevla | S_UnknownCmavo |
S_AnyText | S_ZoiDelimiter.

(** every variant, in source order *)
Definition all_selmaho : list Selmaho :=
[S_A; S_Bai; S_Bahe; S_Be; S_Bei; S_Beho; S_Bihe; S_Bihi; S_Bo; S_Boi; S_Bu;
S_By; S_Cai; S_Caha; S_Cei; S_Cehe; S_Co; S_Coi; S_Cu; S_Cuhe; S_Daho; S_Doi;
S_Dohu; S_Fa; S_Faha; S_Faho; S_Fehe; S_Fehu; S_Fiho; S_Foi; S_Fuha; S_Fuhe;
S_Fuho; S_Ga; S_Gaho; S_Gehu; S_Gi; S_Giha; S_Goi; S_Goha; S_Guha; S_I; S_Ja;
S_Jai; S_Joi; S_Johi; S_Ke; S_Kei; S_Kehe; S_Ki; S_Koha; S_Ku; S_Kuhe; S_Kuho;
S_La; S_Lau; S_Lahe; S_Le; S_Lehu; S_Li; S_Lihu; S_Loho; S_Lohu; S_Lu; S_Luhu;
S_Mai; S_Maho; S_Me; S_Mehu; S_Moi; S_Mohe; S_Mohi; S_Na; S_Nai; S_Nahe;
S_Nahu; S_Nihe; S_Niho; S_Noi; S_Nu; S_Nuha; S_Nuhi; S_Nuhu; S_Pa; S_Pehe;
S_Peho; S_Pu; S_Raho; S_Roi; S_Sa; S_Se; S_Sei; S_Sehu; S_Si; S_Soi; S_Su;
S_Tahe; S_Tei; S_Tehu; S_To; S_Toi; S_Tuhe; S_Tuhu; S_Ui; S_Va; S_Vau; S_Vei;
S_Veha; S_Veho; S_Viha; S_Vuho; S_Vuhu; S_Xi; S_Y; S_Zaho; S_Zei; S_Zeha;
S_Zi; S_Zihe; S_Zo; S_Zoi; S_Zohu; S_Bahei; S_Beihe; S_Boihoi; S_Boihohu;
S_Cahei; S_Ceheihoi; S_Cohai; S_Cohehohe; S_Cohuho; S_Cuhau; S_Dauho; S_Dehai;
S_Dehau; S_Dohoi; S_Fauha; S_Fahoho; S_Fihoi; S_Foihe; S_Gahuhau; S_Gehuhi;
S_Gihei; S_Gihoi; S_Gohoi; S_Ihau; S_Jaiha; S_Jaihi; S_Jauhu; S_Jahoi;
S_Jihoi; S_Joihi; S_Johe; S_Juhau; S_Juhei; S_Juhuhi; S_Kauhai; S_Kauhu;
S_Keihau; S_Keihi; S_Kehai; S_Kehei; S_Keheiha; S_Kehehau; S_Kehehu; S_Kehuhi;
S_Kuhau; S_Kuhei; S_Kuhoihu; S_Kyhoi; S_Lehai; S_Lihau; S_Lihei; S_Lohai;
S_Lohoi; S_Luhei; S_Mauhau; S_Mauhe; S_Mauho; S_Meihe; S_Meiho; S_Mehoi;
S_Muhoi; S_Muhohu; S_Neihai; S_Noiha; S_Noihau; S_Noihahu; S_Noihi; S_Nohoi;
S_Rauho; S_Rehaihe; S_Sauhu; S_Sahau; S_Sahoi; S_Seihau; S_Seiho; S_Sehehi;
S_Sehoihoi; S_Sihihei; S_Sihihoi; S_Sihoi; S_Soihi; S_Sohehai; S_Sohoi;
S_Taihu; S_Tauho; S_Tahoi; S_Tahuhi; S_Teihu; S_Tehoihoi; S_Toihe; S_Toiho;
S_Vauhehoi; S_Vauhohoi; S_Vuhoi; S_Vyhy; S_Xauhe; S_Xauheho; S_Xauho;
S_Xauhoi; S_Xauhoho; S_Xahoihahoiha; S_Xehau; S_Xoi; S_Xoha; S_Xohehohe;
S_Xohi; S_Xuhau; S_Yhi; S_Zaihai; S_Zaihu; S_Zauhehu; S_Zeihei; S_Zeihoi;
S_Ziheha; S_Zihehau; S_Zihoi; S_Zoihai; S_Zoihohe; S_Zohau; S_Zohehu;
S_Zohiho; S_Zohoi; S_Gismu; S_Fuhivla; S_Lujvo; S_Cmevla; S_UnknownCmavo;
S_AnyText; S_ZoiDelimiter].

(** mod.rs:297-552 *)
Definition is_fundamentally_experimental (s : Selmaho) : bool :=
  match s with
  | S_Bahei | S_Beihe | S_Boihoi | S_Boihohu | S_Cahei | S_Ceheihoi | S_Cohai
  | S_Cohehohe | S_Cohuho | S_Cuhau | S_Dauho | S_Dehai | S_Dehau | S_Dohoi |
  S_Fauha | S_Fahoho | S_Fihoi | S_Foihe | S_Gahuhau | S_Gehuhi | S_Gihei |
  S_Gihoi | S_Gohoi | S_Ihau | S_Jaiha | S_Jaihi | S_Jauhu | S_Jahoi | S_Jihoi
  | S_Joihi | S_Johe | S_Juhau | S_Juhei | S_Juhuhi | S_Kauhai | S_Kauhu |
  S_Keihau | S_Keihi | S_Kehai | S_Kehei | S_Keheiha | S_Kehehau | S_Kehehu |
  S_Kehuhi | S_Kuhau | S_Kuhei | S_Kuhoihu | S_Kyhoi | S_Lehai | S_Lihau |
  S_Lihei | S_Lohai | S_Lohoi | S_Luhei | S_Mauhau | S_Mauhe | S_Mauho |
  S_Meihe | S_Meiho | S_Mehoi | S_Muhoi | S_Muhohu | S_Neihai | S_Noiha |
  S_Noihau | S_Noihahu | S_Noihi | S_Nohoi | S_Rauho | S_Rehaihe | S_Sauhu |
  S_Sahau | S_Sahoi | S_Seihau | S_Seiho | S_Sehehi | S_Sehoihoi | S_Sihihei |
  S_Sihihoi | S_Sihoi | S_Soihi | S_Sohehai | S_Sohoi | S_Taihu | S_Tauho |
  S_Tahoi | S_Tahuhi | S_Teihu | S_Tehoihoi | S_Toihe | S_Toiho | S_Vauhehoi |
  S_Vauhohoi | S_Vuhoi | S_Vyhy | S_Xauhe | S_Xauheho | S_Xauho | S_Xauhoi |
  S_Xauhoho | S_Xahoihahoiha | S_Xehau | S_Xoi | S_Xoha | S_Xohehohe | S_Xohi
  | S_Xuhau | S_Yhi | S_Zaihai | S_Zaihu | S_Zauhehu | S_Zeihei | S_Zeihoi |
  S_Ziheha | S_Zihehau | S_Zihoi | S_Zoihai | S_Zoihohe | S_Zohau | S_Zohehu |
  S_Zohiho | S_Zohoi | S_UnknownCmavo => true
  | S_A | S_Bai | S_Bahe | S_Be | S_Bei | S_Beho | S_Bihe | S_Bihi | S_Bo |
  S_Boi | S_Bu | S_By | S_Cai | S_Caha | S_Cei | S_Cehe | S_Co | S_Coi | S_Cu
  | S_Cuhe | S_Daho | S_Doi | S_Dohu | S_Fa | S_Faha | S_Faho | S_Fehe |
  S_Fehu | S_Fiho | S_Foi | S_Fuha | S_Fuhe | S_Fuho | S_Ga | S_Gaho | S_Gehu
  | S_Gi | S_Giha | S_Goi | S_Goha | S_Guha | S_I | S_Ja | S_Jai | S_Joi |
  S_Johi | S_Ke | S_Kei | S_Kehe | S_Ki | S_Koha | S_Ku | S_Kuhe | S_Kuho |
  S_La | S_Lau | S_Lahe | S_Le | S_Lehu | S_Li | S_Lihu | S_Loho | S_Lohu |
  S_Lu | S_Luhu | S_Mai | S_Maho | S_Me | S_Mehu | S_Moi | S_Mohe | S_Mohi |
  S_Na | S_Nai | S_Nahe | S_Nahu | S_Nihe | S_Niho | S_Noi | S_Nu | S_Nuha |
  S_Nuhi | S_Nuhu | S_Pa | S_Pehe | S_Peho | S_Pu | S_Raho | S_Roi | S_Sa |
  S_Se | S_Sei | S_Sehu | S_Si | S_Soi | S_Su | S_Tahe | S_Tei | S_Tehu | S_To
  | S_Toi | S_Tuhe | S_Tuhu | S_Ui | S_Va | S_Vau | S_Vei | S_Veha | S_Veho |
  S_Viha | S_Vuho | S_Vuhu | S_Xi | S_Y | S_Zaho | S_Zei | S_Zeha | S_Zi |
  S_Zihe | S_Zo | S_Zoi | S_Zohu | S_Gismu | S_Fuhivla | S_Lujvo | S_Cmevla |
  S_AnyText | S_ZoiDelimiter => false
  end.

(** display.rs:34-294 *)
Definition as_repr (s : Selmaho) : string :=
  match s with
  | S_A => "A"%string
  | S_Bai => "BAI"%string
  | S_Bahe => "BAhE"%string
  | S_Be => "BE"%string
  | S_Bei => "BEI"%string
  | S_Beho => "BEhO"%string
  | S_Bihe => "BIhE"%string
  | S_Bihi => "BIhI"%string
  | S_Bo => "BO"%string
  | S_Boi => "BOI"%string
  | S_Bu => "BU"%string
  | S_By => "BY"%string
  | S_Cai => "CAI"%string
  | S_Caha => "CAhA"%string
  | S_Cei => "CEI"%string
  | S_Cehe => "CEhE"%string
  | S_Co => "CO"%string
  | S_Coi => "COI"%string
  | S_Cu => "CU"%string
  | S_Cuhe => "CUhE"%string
  | S_Daho => "DAhO"%string
  | S_Doi => "DOI"%string
  | S_Dohu => "DOhU"%string
  | S_Fa => "FA"%string
  | S_Faha => "FAhA"%string
  | S_Faho => "FAhO"%string
  | S_Fehe => "FEhE"%string
  | S_Fehu => "FEhU"%string
  | S_Fiho => "FIhO"%string
  | S_Foi => "FOI"%string
  | S_Fuha => "FUhA"%string
  | S_Fuhe => "FUhE"%string
  | S_Fuho => "FUhO"%string
  | S_Ga => "GA"%string
  | S_Gaho => "GAhO"%string
  | S_Gehu => "GEhU"%string
  | S_Gi => "GI"%string
  | S_Giha => "GIhA"%string
  | S_Goi => "GOI"%string
  | S_Goha => "GOhA"%string
  | S_Guha => "GUhA"%string
  | S_I => "I"%string
  | S_Ja => "JA"%string
  | S_Jai => "JAI"%string
  | S_Joi => "JOI"%string
  | S_Johi => "JOhI"%string
  | S_Ke => "KE"%string
  | S_Kei => "KEI"%string
  | S_Kehe => "KEhE"%string
  | S_Ki => "KI"%string
  | S_Koha => "KOhA"%string
  | S_Ku => "KU"%string
  | S_Kuhe => "KUhE"%string
  | S_Kuho => "KUhO"%string
  | S_La => "LA"%string
  | S_Lau => "LAU"%string
  | S_Lahe => "LAhE"%string
  | S_Le => "LE"%string
  | S_Lehu => "LEhU"%string
  | S_Li => "LI"%string
  | S_Lihu => "LIhU"%string
  | S_Loho => "LOhO"%string
  | S_Lohu => "LOhU"%string
  | S_Lu => "LU"%string
  | S_Luhu => "LUhU"%string
  | S_Mai => "MAI"%string
  | S_Maho => "MAhO"%string
  | S_Me => "ME"%string
  | S_Mehu => "MEhU"%string
  | S_Moi => "MOI"%string
  | S_Mohe => "MOhE"%string
  | S_Mohi => "MOhI"%string
  | S_Na => "NA"%string
  | S_Nai => "NAI"%string
  | S_Nahe => "NAhE"%string
  | S_Nahu => "NAhU"%string
  | S_Nihe => "NIhE"%string
  | S_Niho => "NIhO"%string
  | S_Noi => "NOI"%string
  | S_Nu => "NU"%string
  | S_Nuha => "NUhA"%string
  | S_Nuhi => "NUhI"%string
  | S_Nuhu => "NUhU"%string
  | S_Pa => "PA"%string
  | S_Pehe => "PEhE"%string
  | S_Peho => "PEhO"%string
  | S_Pu => "PU"%string
  | S_Raho => "RAhO"%string
  | S_Roi => "ROI"%string
  | S_Sa => "SA"%string
  | S_Se => "SE"%string
  | S_Sei => "SEI"%string
  | S_Sehu => "SEhU"%string
  | S_Si => "SI"%string
  | S_Soi => "SOI"%string
  | S_Su => "SU"%string
  | S_Tahe => "TAhE"%string
  | S_Tei => "TEI"%string
  | S_Tehu => "TEhU"%string
  | S_To => "TO"%string
  | S_Toi => "TOI"%string
  | S_Tuhe => "TUhE"%string
  | S_Tuhu => "TUhU"%string
  | S_Ui => "UI"%string
  | S_Va => "VA"%string
  | S_Vau => "VAU"%string
  | S_Vei => "VEI"%string
  | S_Veha => "VEhA"%string
  | S_Veho => "VEhO"%string
  | S_Viha => "VIhA"%string
  | S_Vuho => "VUhO"%string
  | S_Vuhu => "VUhU"%string
  | S_Xi => "XI"%string
  | S_Y => "Y"%string
  | S_Zaho => "ZAhO"%string
  | S_Zei => "ZEI"%string
  | S_Zeha => "ZEhA"%string
  | S_Zi => "ZI"%string
  | S_Zihe => "ZIhE"%string
  | S_Zo => "ZO"%string
  | S_Zoi => "ZOI"%string
  | S_Zohu => "ZOhU"%string
  | S_Bahei => "BAhEI"%string
  | S_Beihe => "BEIhE"%string
  | S_Boihoi => "BOIhOI"%string
  | S_Boihohu => "BOIhOhU"%string
  | S_Cahei => "CAhEI"%string
  | S_Ceheihoi => "CEhEIhOI"%string
  | S_Cohai => "COhAI"%string
  | S_Cohehohe => "COhEhOhE"%string
  | S_Cohuho => "COhUhO"%string
  | S_Cuhau => "CUhAU"%string
  | S_Dauho => "DAUhO"%string
  | S_Dehai => "DEhAI"%string
  | S_Dehau => "DEhAU"%string
  | S_Dohoi => "DOhOI"%string
  | S_Fauha => "FAUhA"%string
  | S_Fahoho => "FAhOhO"%string
  | S_Fihoi => "FIhOI"%string
  | S_Foihe => "FOIhE"%string
  | S_Gahuhau => "GAhUhAU"%string
  | S_Gehuhi => "GEhUhI"%string
  | S_Gihei => "GIhEI"%string
  | S_Gihoi => "GIhOI"%string
  | S_Gohoi => "GOhOI"%string
  | S_Ihau => "IhAU"%string
  | S_Jaiha => "JAIhA"%string
  | S_Jaihi => "JAIhI"%string
  | S_Jauhu => "JAUhU"%string
  | S_Jahoi => "JAhOI"%string
  | S_Jihoi => "JIhOI"%string
  | S_Joihi => "JOIhI"%string
  | S_Johe => "JOhE"%string
  | S_Juhau => "JUhAU"%string
  | S_Juhei => "JUhEI"%string
  | S_Juhuhi => "JUhUhI"%string
  | S_Kauhai => "KAUhAI"%string
  | S_Kauhu => "KAUhU"%string
  | S_Keihau => "KEIhAU"%string
  | S_Keihi => "KEIhI"%string
  | S_Kehai => "KEhAI"%string
  | S_Kehei => "KEhEI"%string
  | S_Keheiha => "KEhEIhA"%string
  | S_Kehehau => "KEhEhAU"%string
  | S_Kehehu => "KEhEhU"%string
  | S_Kehuhi => "KEhUhI"%string
  | S_Kuhau => "KUhAU"%string
  | S_Kuhei => "KUhEI"%string
  | S_Kuhoihu => "KUhOIhU"%string
  | S_Kyhoi => "KYhOI"%string
  | S_Lehai => "LEhAI"%string
  | S_Lihau => "LIhAU"%string
  | S_Lihei => "LIhEI"%string
  | S_Lohai => "LOhAI"%string
  | S_Lohoi => "LOhOI"%string
  | S_Luhei => "LUhEI"%string
  | S_Mauhau => "MAUhAU"%string
  | S_Mauhe => "MAUhE"%string
  | S_Mauho => "MAUhO"%string
  | S_Meihe => "MEIhE"%string
  | S_Meiho => "MEIhO"%string
  | S_Mehoi => "MEhOI"%string
  | S_Muhoi => "MUhOI"%string
  | S_Muhohu => "MUhOhU"%string
  | S_Neihai => "NEIhAI"%string
  | S_Noiha => "NOIhA"%string
  | S_Noihau => "NOIhAU"%string
  | S_Noihahu => "NOIhAhU"%string
  | S_Noihi => "NOIhI"%string
  | S_Nohoi => "NOhOI"%string
  | S_Rauho => "RAUhO"%string
  | S_Rehaihe => "REhAIhE"%string
  | S_Sauhu => "SAUhU"%string
  | S_Sahau => "SAhAU"%string
  | S_Sahoi => "SAhOI"%string
  | S_Seihau => "SEIhAU"%string
  | S_Seiho => "SEIhO"%string
  | S_Sehehi => "SEhEhI"%string
  | S_Sehoihoi => "SEhOIhOI"%string
  | S_Sihihei => "SIhIhEI"%string
  | S_Sihihoi => "SIhIhOI"%string
  | S_Sihoi => "SIhOI"%string
  | S_Soihi => "SOIhI"%string
  | S_Sohehai => "SOhEhAI"%string
  | S_Sohoi => "SOhOI"%string
  | S_Taihu => "TAIhU"%string
  | S_Tauho => "TAUhO"%string
  | S_Tahoi => "TAhOI"%string
  | S_Tahuhi => "TAhUhI"%string
  | S_Teihu => "TEIhU"%string
  | S_Tehoihoi => "TEhOIhOI"%string
  | S_Toihe => "TOIhE"%string
  | S_Toiho => "TOIhO"%string
  | S_Vauhehoi => "VAUhEhOI"%string
  | S_Vauhohoi => "VAUhOhOI"%string
  | S_Vuhoi => "VUhOI"%string
  | S_Vyhy => "VYhY"%string
  | S_Xauhe => "XAUhE"%string
  | S_Xauheho => "XAUhEhO"%string
  | S_Xauho => "XAUhO"%string
  | S_Xauhoi => "XAUhOI"%string
  | S_Xauhoho => "XAUhOhO"%string
  | S_Xahoihahoiha => "XAhOIhAhOIhA"%string
  | S_Xehau => "XEhAU"%string
  | S_Xoi => "XOI"%string
  | S_Xoha => "XOhA"%string
  | S_Xohehohe => "XOhEhOhE"%string
  | S_Xohi => "XOhI"%string
  | S_Xuhau => "XUhAU"%string
  | S_Yhi => "YhI"%string
  | S_Zaihai => "ZAIhAI"%string
  | S_Zaihu => "ZAIhU"%string
  | S_Zauhehu => "ZAUhEhU"%string
  | S_Zeihei => "ZEIhEI"%string
  | S_Zeihoi => "ZEIhOI"%string
  | S_Ziheha => "ZIhEhA"%string
  | S_Zihehau => "ZIhEhAU"%string
  | S_Zihoi => "ZIhOI"%string
  | S_Zoihai => "ZOIhAI"%string
  | S_Zoihohe => "ZOIhOhE"%string
  | S_Zohau => "ZOhAU"%string
  | S_Zohehu => "ZOhEhU"%string
  | S_Zohiho => "ZOhIhO"%string
  | S_Zohoi => "ZOhOI"%string
  | S_Gismu => "gismu"%string
  | S_Fuhivla => "fuhivla"%string
  | S_Lujvo => "lujvo"%string
  | S_Cmevla => "cmevla"%string
  | S_UnknownCmavo => "(unknown cmavo)"%string
  | S_AnyText => "(any text)"%string
  | S_ZoiDelimiter => "(zoi delimiter)"%string
  end.

(** the discriminant, and the derived [PartialEq] (mod.rs:13) on it *)
Definition sel_index (s : Selmaho) : N :=
  match s with
  | S_A => 0
  | S_Bai => 1
  | S_Bahe => 2
  | S_Be => 3
  | S_Bei => 4
  | S_Beho => 5
  | S_Bihe => 6
  | S_Bihi => 7
  | S_Bo => 8
  | S_Boi => 9
  | S_Bu => 10
  | S_By => 11
  | S_Cai => 12
  | S_Caha => 13
  | S_Cei => 14
  | S_Cehe => 15
  | S_Co => 16
  | S_Coi => 17
  | S_Cu => 18
  | S_Cuhe => 19
  | S_Daho => 20
  | S_Doi => 21
  | S_Dohu => 22
  | S_Fa => 23
  | S_Faha => 24
  | S_Faho => 25
  | S_Fehe => 26
  | S_Fehu => 27
  | S_Fiho => 28
  | S_Foi => 29
  | S_Fuha => 30
  | S_Fuhe => 31
  | S_Fuho => 32
  | S_Ga => 33
  | S_Gaho => 34
  | S_Gehu => 35
  | S_Gi => 36
  | S_Giha => 37
  | S_Goi => 38
  | S_Goha => 39
  | S_Guha => 40
  | S_I => 41
  | S_Ja => 42
  | S_Jai => 43
  | S_Joi => 44
  | S_Johi => 45
  | S_Ke => 46
  | S_Kei => 47
  | S_Kehe => 48
  | S_Ki => 49
  | S_Koha => 50
  | S_Ku => 51
  | S_Kuhe => 52
  | S_Kuho => 53
  | S_La => 54
  | S_Lau => 55
  | S_Lahe => 56
  | S_Le => 57
  | S_Lehu => 58
  | S_Li => 59
  | S_Lihu => 60
  | S_Loho => 61
  | S_Lohu => 62
  | S_Lu => 63
  | S_Luhu => 64
  | S_Mai => 65
  | S_Maho => 66
  | S_Me => 67
  | S_Mehu => 68
  | S_Moi => 69
  | S_Mohe => 70
  | S_Mohi => 71
  | S_Na => 72
  | S_Nai => 73
  | S_Nahe => 74
  | S_Nahu => 75
  | S_Nihe => 76
  | S_Niho => 77
  | S_Noi => 78
  | S_Nu => 79
  | S_Nuha => 80
  | S_Nuhi => 81
  | S_Nuhu => 82
  | S_Pa => 83
  | S_Pehe => 84
  | S_Peho => 85
  | S_Pu => 86
  | S_Raho => 87
  | S_Roi => 88
  | S_Sa => 89
  | S_Se => 90
  | S_Sei => 91
  | S_Sehu => 92
  | S_Si => 93
  | S_Soi => 94
  | S_Su => 95
  | S_Tahe => 96
  | S_Tei => 97
  | S_Tehu => 98
  | S_To => 99
  | S_Toi => 100
  | S_Tuhe => 101
  | S_Tuhu => 102
  | S_Ui => 103
  | S_Va => 104
  | S_Vau => 105
  | S_Vei => 106
  | S_Veha => 107
  | S_Veho => 108
  | S_Viha => 109
  | S_Vuho => 110
  | S_Vuhu => 111
  | S_Xi => 112
  | S_Y => 113
  | S_Zaho => 114
  | S_Zei => 115
  | S_Zeha => 116
  | S_Zi => 117
  | S_Zihe => 118
  | S_Zo => 119
  | S_Zoi => 120
  | S_Zohu => 121
  | S_Bahei => 122
  | S_Beihe => 123
  | S_Boihoi => 124
  | S_Boihohu => 125
  | S_Cahei => 126
  | S_Ceheihoi => 127
  | S_Cohai => 128
  | S_Cohehohe => 129
  | S_Cohuho => 130
  | S_Cuhau => 131
  | S_Dauho => 132
  | S_Dehai => 133
  | S_Dehau => 134
  | S_Dohoi => 135
  | S_Fauha => 136
  | S_Fahoho => 137
  | S_Fihoi => 138
  | S_Foihe => 139
  | S_Gahuhau => 140
  | S_Gehuhi => 141
  | S_Gihei => 142
  | S_Gihoi => 143
  | S_Gohoi => 144
  | S_Ihau => 145
  | S_Jaiha => 146
  | S_Jaihi => 147
  | S_Jauhu => 148
  | S_Jahoi => 149
  | S_Jihoi => 150
  | S_Joihi => 151
  | S_Johe => 152
  | S_Juhau => 153
  | S_Juhei => 154
  | S_Juhuhi => 155
  | S_Kauhai => 156
  | S_Kauhu => 157
  | S_Keihau => 158
  | S_Keihi => 159
  | S_Kehai => 160
  | S_Kehei => 161
  | S_Keheiha => 162
  | S_Kehehau => 163
  | S_Kehehu => 164
  | S_Kehuhi => 165
  | S_Kuhau => 166
  | S_Kuhei => 167
  | S_Kuhoihu => 168
  | S_Kyhoi => 169
  | S_Lehai => 170
  | S_Lihau => 171
  | S_Lihei => 172
  | S_Lohai => 173
  | S_Lohoi => 174
  | S_Luhei => 175
  | S_Mauhau => 176
  | S_Mauhe => 177
  | S_Mauho => 178
  | S_Meihe => 179
  | S_Meiho => 180
  | S_Mehoi => 181
  | S_Muhoi => 182
  | S_Muhohu => 183
  | S_Neihai => 184
  | S_Noiha => 185
  | S_Noihau => 186
  | S_Noihahu => 187
  | S_Noihi => 188
  | S_Nohoi => 189
  | S_Rauho => 190
  | S_Rehaihe => 191
  | S_Sauhu => 192
  | S_Sahau => 193
  | S_Sahoi => 194
  | S_Seihau => 195
  | S_Seiho => 196
  | S_Sehehi => 197
  | S_Sehoihoi => 198
  | S_Sihihei => 199
  | S_Sihihoi => 200
  | S_Sihoi => 201
  | S_Soihi => 202
  | S_Sohehai => 203
  | S_Sohoi => 204
  | S_Taihu => 205
  | S_Tauho => 206
  | S_Tahoi => 207
  | S_Tahuhi => 208
  | S_Teihu => 209
  | S_Tehoihoi => 210
  | S_Toihe => 211
  | S_Toiho => 212
  | S_Vauhehoi => 213
  | S_Vauhohoi => 214
  | S_Vuhoi => 215
  | S_Vyhy => 216
  | S_Xauhe => 217
  | S_Xauheho => 218
  | S_Xauho => 219
  | S_Xauhoi => 220
  | S_Xauhoho => 221
  | S_Xahoihahoiha => 222
  | S_Xehau => 223
  | S_Xoi => 224
  | S_Xoha => 225
  | S_Xohehohe => 226
  | S_Xohi => 227
  | S_Xuhau => 228
  | S_Yhi => 229
  | S_Zaihai => 230
  | S_Zaihu => 231
  | S_Zauhehu => 232
  | S_Zeihei => 233
  | S_Zeihoi => 234
  | S_Ziheha => 235
  | S_Zihehau => 236
  | S_Zihoi => 237
  | S_Zoihai => 238
  | S_Zoihohe => 239
  | S_Zohau => 240
  | S_Zohehu => 241
  | S_Zohiho => 242
  | S_Zohoi => 243
  | S_Gismu => 244
  | S_Fuhivla => 245
  | S_Lujvo => 246
  | S_Cmevla => 247
  | S_UnknownCmavo => 248
  | S_AnyText => 249
  | S_ZoiDelimiter => 250
  end.
Definition sel_eqb (a b : Selmaho) : bool := sel_index a =? sel_index b.
