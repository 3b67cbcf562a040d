(** CstWitness.v -- accepted sentences (as sequences of classes) showing that the
    lists of SpecCst.v are exact; taken from the test sentences of
    /repo/src/parse/cst/tests.rs and their parts.  Data only. *)
From Verif Require Import Base Span Selmaho Lex.

(** every ordinary class occurs in one of these *)
Definition usable_examples : list (list Selmaho) :=
 [[S_A]; [S_Bai]; [S_Bahe; S_Koha]; [S_Gismu; S_Be; S_Koha]; [S_Gismu; S_Be; S_Koha; S_Bei; S_Koha];
  [S_Gismu; S_Be; S_Koha; S_Beho]; [S_Li; S_By; S_Bihe; S_Vuhu; S_Pa]; [S_Bihi]; [S_Gismu; S_Bo; S_Gismu];
  [S_By; S_Boi]; [S_By]; [S_Cai]; [S_Caha]; [S_Gismu; S_Cei; S_Gismu]; [S_Koha; S_Cehe; S_Bai];
  [S_Gismu; S_Co; S_Gismu]; [S_Coi]; [S_Cu; S_Gismu]; [S_Cuhe]; [S_Daho]; [S_Doi]; [S_Coi; S_Dohu];
  [S_Fa; S_Koha]; [S_Faha]; [S_Faho]; [S_Fehe; S_Tahe]; [S_Fiho; S_Gismu; S_Fehu]; [S_Fiho; S_Gismu];
  [S_Tei; S_By; S_Foi]; [S_Li; S_Fuha; S_Pa]; [S_Fuhe; S_Ui]; [S_Fuho]; [S_Ga; S_La; S_Cmevla; S_Gi];
  [S_Gaho; S_Bihi; S_Gaho]; [S_Koha; S_Goi; S_Koha; S_Gehu]; [S_Guha; S_Gismu; S_Gi; S_Gismu]; [S_Giha];
  [S_Koha; S_Goi; S_Koha]; [S_Goha]; [S_I]; [S_Ja]; [S_Jai; S_Gismu]; [S_Joi]; [S_Li; S_Johi; S_Pa];
  [S_Ke; S_Gismu]; [S_Nu; S_Gismu; S_Kei]; [S_Ke; S_Gismu; S_Kehe]; [S_Ki]; [S_Koha]; [S_Bai; S_Ku];
  [S_Vei; S_Vuhu; S_By; S_Kuhe]; [S_Koha; S_Noi; S_Gismu; S_Kuho]; [S_La; S_Cmevla]; [S_Lau; S_By];
  [S_Lahe; S_Lu]; [S_Le; S_Gismu]; [S_Li; S_Pa]; [S_Lu; S_Ui; S_Cai; S_Lihu]; [S_Li; S_Pa; S_Loho]; [S_Lu];
  [S_Lahe; S_Le; S_Gismu; S_Luhu]; [S_By; S_Mai]; [S_Li; S_Maho; S_By; S_Boi; S_By]; [S_Me; S_By];
  [S_Me; S_La; S_Cmevla; S_Mehu]; [S_Pa; S_Moi]; [S_Li; S_Mohe; S_Pa; S_Gismu]; [S_Mohi; S_Faha]; [S_Na];
  [S_Nai]; [S_Nahe; S_Gismu]; [S_Li; S_Pa; S_Nahu; S_Goha; S_Pa]; [S_Li; S_Nihe; S_Nu; S_Gismu]; [S_Niho];
  [S_Koha; S_Noi; S_Gismu]; [S_Nu; S_Gismu]; [S_Nuha; S_Vuhu]; [S_Nuhi];
  [S_Nuhi; S_Bai; S_La; S_Cmevla; S_Nuhu]; [S_Pa]; [S_Koha; S_Pehe; S_Ja; S_Koha];
  [S_Li; S_Peho; S_Vuhu; S_Pa]; [S_Pu]; [S_Goha; S_Raho]; [S_Pa; S_Roi]; [S_Se; S_Gismu]; [S_Sei];
  [S_Soi; S_Koha; S_Sehu]; [S_Soi; S_Koha]; [S_Tahe]; [S_Li; S_Nihe; S_Nu; S_Gismu; S_Tehu]; [S_To];
  [S_To; S_Doi; S_Cmevla; S_Koha; S_Gismu; S_Toi]; [S_Tuhe];
  [S_Tuhe; S_Koha; S_Gismu; S_Pa; S_Gismu; S_Tuhu]; [S_Ui]; [S_Va]; [S_Gismu; S_Vau]; [S_Vei; S_Pa];
  [S_Veha]; [S_Vei; S_By; S_Veho]; [S_Viha]; [S_La; S_Cmevla; S_Vuho; S_Noi; S_Gismu]; [S_Xi; S_Pa]; [S_Y];
  [S_Zaho]; [S_Zeha]; [S_Zi]; [S_Le; S_Gismu; S_Noi; S_Gismu; S_Zihe; S_Noi; S_Gismu]; [S_Zohu]; [S_Gismu];
  [S_Fuhivla]; [S_Lujvo]].

(** ... and all that can end a text end one of these *)
Definition final_examples : list (list Selmaho) :=
 [[S_A]; [S_Bai]; [S_Gismu; S_Be; S_Koha; S_Beho]; [S_Bihi]; [S_Gismu; S_I; S_Bai; S_Bo]; [S_By; S_Boi];
  [S_By]; [S_Cai]; [S_Caha]; [S_Coi]; [S_Cuhe]; [S_Daho]; [S_Doi]; [S_Coi; S_Dohu]; [S_Faha]; [S_Faho];
  [S_Fiho; S_Gismu; S_Fehu]; [S_Tei; S_By; S_Foi]; [S_Fuho]; [S_Gaho; S_Bihi; S_Gaho];
  [S_Koha; S_Goi; S_Koha; S_Gehu]; [S_Ga; S_La; S_Cmevla; S_Gi]; [S_Giha]; [S_Goha]; [S_I]; [S_Ja]; [S_Joi];
  [S_Nu; S_Gismu; S_Kei]; [S_Ke; S_Gismu; S_Kehe]; [S_Ki]; [S_Koha]; [S_Bai; S_Ku];
  [S_Vei; S_Vuhu; S_By; S_Kuhe]; [S_Koha; S_Noi; S_Gismu; S_Kuho]; [S_Lu; S_Ui; S_Cai; S_Lihu];
  [S_Li; S_Pa; S_Loho]; [S_Lu]; [S_Lahe; S_Le; S_Gismu; S_Luhu]; [S_By; S_Mai];
  [S_Me; S_La; S_Cmevla; S_Mehu]; [S_Pa; S_Moi]; [S_Na]; [S_Nai]; [S_Niho]; [S_Nuhi];
  [S_Nuhi; S_Bai; S_La; S_Cmevla; S_Nuhu]; [S_Pa]; [S_Pu]; [S_Goha; S_Raho]; [S_Pa; S_Roi]; [S_Sei];
  [S_Soi; S_Koha; S_Sehu]; [S_Tahe]; [S_Li; S_Nihe; S_Nu; S_Gismu; S_Tehu]; [S_To];
  [S_To; S_Doi; S_Cmevla; S_Koha; S_Gismu; S_Toi]; [S_Tuhe];
  [S_Tuhe; S_Koha; S_Gismu; S_Pa; S_Gismu; S_Tuhu]; [S_Ui]; [S_Va]; [S_Gismu; S_Vau]; [S_Veha];
  [S_Vei; S_By; S_Veho]; [S_Viha]; [S_Nuha; S_Vuhu]; [S_Y]; [S_Zaho]; [S_Zeha]; [S_Zi]; [S_Zohu]; [S_Gismu];
  [S_Fuhivla]; [S_Lujvo]; [S_La; S_Cmevla]].

(** ... and all that can begin a text begin one of these *)
Definition initial_examples : list (list Selmaho) :=
 [[S_A]; [S_Bai]; [S_Bahe; S_Koha]; [S_Bihi]; [S_By]; [S_Cai]; [S_Caha]; [S_Coi]; [S_Cu; S_Gismu]; [S_Cuhe];
  [S_Daho]; [S_Doi]; [S_Fa; S_Koha]; [S_Faha]; [S_Faho]; [S_Fehe; S_Tahe]; [S_Fiho; S_Gismu]; [S_Fuhe; S_Ui];
  [S_Fuho]; [S_Ga; S_La; S_Cmevla; S_Gi]; [S_Gaho; S_Bihi; S_Gaho]; [S_Giha]; [S_Goha];
  [S_Guha; S_Gismu; S_Gi; S_Gismu]; [S_I]; [S_Ja]; [S_Jai; S_Gismu]; [S_Joi]; [S_Ke; S_Gismu]; [S_Ki];
  [S_Koha]; [S_La; S_Cmevla]; [S_Lau; S_By]; [S_Lahe; S_Lu]; [S_Le; S_Gismu]; [S_Li; S_Pa]; [S_Lu];
  [S_Me; S_By]; [S_Mohi; S_Faha]; [S_Na]; [S_Nai]; [S_Nahe; S_Gismu]; [S_Niho]; [S_Nu; S_Gismu];
  [S_Nuha; S_Vuhu]; [S_Nuhi]; [S_Pa]; [S_Pu]; [S_Se; S_Gismu]; [S_Sei]; [S_Soi; S_Koha]; [S_Tahe];
  [S_Tei; S_By; S_Foi]; [S_To]; [S_Tuhe]; [S_Ui]; [S_Va]; [S_Vei; S_Pa]; [S_Veha]; [S_Viha]; [S_Xi; S_Pa];
  [S_Y]; [S_Zaho]; [S_Zeha]; [S_Zi]; [S_Zohu]; [S_Gismu]; [S_Fuhivla]; [S_Lujvo]].
