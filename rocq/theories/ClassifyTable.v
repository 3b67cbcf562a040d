(** ClassifyTable.v -- the literal arms of the match in [Selmaho::classify],
    /repo/src/lex/selmaho/classify.rs:72-475, in source order.  An entry is
    (patterns, selmaho, experimental): [experimental] is set when the arm is
    wrapped in the local macro [experimental!] (classify.rs:63-68).
    No proofs in this file. *)
From Verif Require Import Base Selmaho.
Local Open Scope string_scope.

(** classify.rs:31 *)
Definition CUHUHU_ETC : string := "cu'u'u'u'u'u'u'u'u'u'u'u'u'u'u'u'u'u'u'u'u'u'u'u'u'u'u'u'u'u'u'u'u'u'u'u'u'u'u'u'u'u'u'u'u'u'u'u'u".

(** Pattern of an arm: a list of literals, or the guarded arm
    [word if !word.is_empty() && word.chars().all(|ch| ch == 'y')]. *)
Inductive pat := Lits (l : list string) | AllY.

Definition table_arms : list (pat * Selmaho * bool) :=
[
  (* classify.rs:72 *)
  (Lits ["a"; "e"; "ji"; "o"; "u"], S_A, false);
  (* classify.rs:73 *)
  (Lits ["e'u'a"; "i'a'a"], S_A, true);
  (* classify.rs:74-80 *)
  (Lits ["ba'i"; "bai"; "bau"; "be'i"; "ca'i"; "cau"; "ci'e"; "ci'o"; "ci'u";
    "cu'u"; "de'i"; "di'o"; "do'e"; "du'i"; "du'o"; "fa'e"; "fi'e"; "ga'a"; "gau";
    "ja'e"; "ji'e"; "ji'o"; "ji'u"; "ka'a"; "ka'i"; "kai"; "ki'i"; "ki'u"; "koi";
    "ku'u"; "la'u"; "le'a"; "li'e"; "ma'e"; "ma'i"; "mau"; "me'a"; "me'e"; "mu'i";
    "mu'u"; "ni'i"; "pa'a"; "pa'u"; "pi'o"; "pu'a"; "pu'e"; "ra'a"; "ra'i"; "rai";
    "ri'a"; "ri'i"; "sau"; "si'u"; "ta'i"; "tai"; "ti'i"; "ti'u"; "tu'i"; "va'o";
    "va'u"; "zau"; "zu'e"], S_Bai, false);
  (* classify.rs:81-84 *)
  (Lits ["be'ei"; "da'ai'a"; "de'i'a"; "de'i'e"; "de'i'i"; "de'i'o"; "de'i'u";
    "fi'ei"; "gai'i"; "ja'u"; "ka'ai"; "kai'ai"; "ki'oi"; "ko'au"; "ku'ai";
    "li'i'e"; "mu'ai"; "mu'e'ei"; "nai'i"; "nu'ai"; "pau'u"; "po'a"; "pu'ai";
    "te'a'a"; "te'i"; "ti'u'a"; "ti'u'e"; "ti'u'i"; "xau"], S_Bai, true);
  (* classify.rs:85 *)
  (Lits ["ba'e"; "za'e"; "ci'a"], S_Bahe, false);
  (* classify.rs:86 *)
  (Lits ["pe'ei"; "zai'e"; "zei'e"], S_Bahe, true);
  (* classify.rs:87 *)
  (Lits ["be"], S_Be, false);
  (* classify.rs:88 *)
  (Lits ["bei"], S_Bei, false);
  (* classify.rs:89 *)
  (Lits ["be'o"], S_Beho, false);
  (* classify.rs:90 *)
  (Lits ["bi'e"], S_Bihe, false);
  (* classify.rs:91 *)
  (Lits ["bi'i"; "bi'o"; "mi'i"], S_Bihi, false);
  (* classify.rs:92 *)
  (Lits ["bo"], S_Bo, false);
  (* classify.rs:93 *)
  (Lits ["boi"], S_Boi, false);
  (* classify.rs:94 *)
  (Lits ["boi'e'u"], S_Boi, true);
  (* classify.rs:95 *)
  (Lits ["bu"], S_Bu, false);
  (* classify.rs:96-98 *)
  (Lits ["by"; "cy"; "dy"; "fy"; "ga'e"; "ge'o"; "gy"; "je'o"; "jo'o"; "jy"; "ky";
    "lo'a"; "ly"; "my"; "na'a"; "ny"; "py"; "ru'o"; "ry"; "se'e"; "sy"; "to'a";
    "ty"; "vy"; "xy"; "y'y"; "zy"], S_By, false);
  (* classify.rs:99-101 *)
  (Lits ["bu'o'e"; "e'y"; "i'y"; "iy"; "iy'y"; "o'y"; "u'y"; "uy"; "jo'au'o";
    "ro'au'o"], S_By, true);
  (* classify.rs:102 *)
  (Lits ["cai"; "cu'i"; "pei"; "ru'e"; "sai"], S_Cai, false);
  (* classify.rs:103-105 *)
  (Lits ["cau'i"; "dai'i"; "na'oi"; "ni'au"; "pei'a"; "dau'i"; "mau'i"; "me'ai"],
    S_Cai, true);
  (* classify.rs:106 *)
  (Lits ["ca'a"; "ka'e"; "nu'o"; "pu'i"], S_Caha, false);
  (* classify.rs:107 *)
  (Lits ["bi'ai"], S_Caha, true);
  (* classify.rs:108 *)
  (Lits ["cei"], S_Cei, false);
  (* classify.rs:109 *)
  (Lits ["ce'e"], S_Cehe, false);
  (* classify.rs:110 *)
  (Lits ["co"], S_Co, false);
  (* classify.rs:111 *)
  (Lits ["co'ai'e"; "co'au'e"; "co'o'e"], S_Co, true);
  (* classify.rs:112-113 *)
  (Lits ["be'e"; "coi"; "co'o"; "fe'o"; "fi'i"; "je'e"; "ju'i"; "ke'o"; "ki'e";
    "mi'e"; "mu'o"; "nu'e"; "pe'u"; "re'i"; "ta'a"; "vi'o"], S_Coi, false);
  (* classify.rs:114-119 *)
  (Lits ["a'oi"; "bu'oi"; "co'oi"; "de'a'ai"; "di'a'ai"; "di'ai"; "doi'oi";
    "fau'u"; "fe'oi"; "fi'i'e"; "ke'o'a"; "ke'o'o"; "ke'o'u"; "ku'au'i";
    "ku'o'e'a"; "o'ai"; "sau'ei"; "sau'e'u"; "sei'ai"; "sei'u"; "te'ei"; "ve'ei";
    "xu'e"; "zau'e"; "ci'oi"; "go'au"; "goi'e"; "jo'au"; "ki'ai"; "sa'ei";
    "tai'i"], S_Coi, true);
  (* classify.rs:120 *)
  (Lits ["cu"], S_Cu, false);
  (* classify.rs:121 *)
  (Lits ["cu'e"; "nau"], S_Cuhe, false);
  (* classify.rs:122 *)
  (Lits ["ba'au"; "pu'au"], S_Cuhe, true);
  (* classify.rs:123 *)
  (Lits ["da'o"], S_Daho, false);
  (* classify.rs:124 *)
  (Lits ["dai'o"; "do'ai"; "xei'a"; "xei'i"; "xei'u"], S_Daho, true);
  (* classify.rs:125 *)
  (Lits ["doi"], S_Doi, false);
  (* classify.rs:126 *)
  (Lits ["ve'ai"; "da'ei"; "da'oi"], S_Doi, true);
  (* classify.rs:127 *)
  (Lits ["do'u"], S_Dohu, false);
  (* classify.rs:128 *)
  (Lits ["fa"; "fai"; "fe"; "fi"; "fi'a"; "fo"; "fu"], S_Fa, false);
  (* classify.rs:129 *)
  (Lits ["fai'i"; "fa'au'u"; "zoi'u"], S_Fa, true);
  (* classify.rs:130-132 *)
  (Lits ["be'a"; "vu'a"; "du'a"; "ne'u"; "ru'u"; "ri'u"; "ti'a"; "ga'u"; "ca'u";
    "ni'a"; "zu'a"; "re'o"; "te'e"; "bu'u"; "ne'a"; "ne'i"; "pa'o"; "to'o";
    "fa'a"; "ze'o"; "zo'a"; "zo'i"], S_Faha, false);
  (* classify.rs:133 *)
  (Lits ["bau'u"; "gau'o"; "du'oi"; "zu'au"], S_Faha, true);
  (* classify.rs:134 *)
  (Lits ["fa'o"], S_Faho, false);
  (* classify.rs:135 *)
  (Lits ["fa'u'u'u'u'u'u'u'u"; "to'au"], S_Faho, true);
  (* classify.rs:136 *)
  (Lits ["fe'e"], S_Fehe, false);
  (* classify.rs:137 *)
  (Lits ["fe'u"], S_Fehu, false);
  (* classify.rs:138 *)
  (Lits ["fi'o"], S_Fiho, false);
  (* classify.rs:139 *)
  (Lits ["foi"], S_Foi, false);
  (* classify.rs:140 *)
  (Lits ["fu'a"], S_Fuha, false);
  (* classify.rs:141 *)
  (Lits ["fu'e"], S_Fuhe, false);
  (* classify.rs:142 *)
  (Lits ["fu'ei"], S_Fuhe, true);
  (* classify.rs:143 *)
  (Lits ["fu'o"], S_Fuho, false);
  (* classify.rs:144 *)
  (Lits ["ga"; "ge"; "ge'i"; "go"; "gu"], S_Ga, false);
  (* classify.rs:145 *)
  (Lits ["ge'u'a"; "gi'a'a"], S_Ga, true);
  (* classify.rs:146 *)
  (Lits ["ga'o"; "ke'i"], S_Gaho, false);
  (* classify.rs:147-149 *)
  (Lits ["xai'u'oi"; "xoi'u'oi"; "ma'a'u'oi"; "xau'u'oi"; "xei'u'oi"], S_Gaho,
    true);
  (* classify.rs:150 *)
  (Lits ["ge'u"], S_Gehu, false);
  (* classify.rs:151 *)
  (Lits ["gi"], S_Gi, false);
  (* classify.rs:152 *)
  (Lits ["gi'a"; "gi'e"; "gi'i"; "gi'o"; "gi'u"], S_Giha, false);
  (* classify.rs:153 *)
  (Lits ["gi'e'u'a"; "gi'i'a'a"], S_Giha, true);
  (* classify.rs:154 *)
  (Lits ["goi"; "po"; "po'e"; "po'u"; "ne"; "no'u"; "pe"], S_Goi, false);
  (* classify.rs:155 *)
  (Lits ["voi'e"], S_Goi, true);
  (* classify.rs:156-157 *)
  (Lits ["go'a"; "go'e"; "go'i"; "go'o"; "go'u"; "bu'a"; "bu'e"; "bu'i"; "co'e";
    "du"; "mo"; "nei"; "no'a"], S_Goha, false);
  (* classify.rs:158 *)
  (Lits ["gai'o"; "gi'o'i"; "go'ai"; "ku'ai'i"; "cei'i"; "xe'u"], S_Goha, true);
  (* classify.rs:159 *)
  (Lits ["gu'a"; "gu'e"; "gu'i"; "gu'o"; "gu'u"], S_Guha, false);
  (* classify.rs:160 *)
  (Lits ["gu'e'u'a"; "gu'i'a'a"], S_Guha, true);
  (* classify.rs:161 *)
  (Lits ["i"], S_I, false);
  (* classify.rs:162 *)
  (Lits ["ja"; "je"; "je'i"; "jo"; "ju"], S_Ja, false);
  (* classify.rs:163 *)
  (Lits ["je'u'a"; "ji'a'a"], S_Ja, true);
  (* classify.rs:164 *)
  (Lits ["jai"], S_Jai, false);
  (* classify.rs:165 *)
  (Lits ["ja'ei"; "jai'e"; "jo'ai"], S_Jai, true);
  (* classify.rs:166 *)
  (Lits ["joi"; "fa'u"; "pi'u"; "jo'e"; "jo'u"; "ju'e"; "ku'a"; "ce"; "ce'o"],
    S_Joi, false);
  (* classify.rs:167-168 *)
  (Lits ["fa'u'ai"; "xoi'u"; "jo'ei"; "jo'ei'i"; "joi'au'a"; "jo'oi"; "bo'a'oi";
    "ce'au"; "ce'oi"], S_Joi, true);
  (* classify.rs:169 *)
  (Lits ["jo'i"], S_Johi, false);
  (* classify.rs:170 *)
  (Lits ["ke"], S_Ke, false);
  (* classify.rs:171 *)
  (Lits ["va'au"; "fei'u"; "ke'oi"; "pi'ai"], S_Ke, true);
  (* classify.rs:172 *)
  (Lits ["ke'e"], S_Kehe, false);
  (* classify.rs:173 *)
  (Lits ["kei"], S_Kei, false);
  (* classify.rs:174 *)
  (Lits ["ki"], S_Ki, false);
  (* classify.rs:175-179 *)
  (Lits ["da"; "de"; "di"; "da'u"; "de'e"; "dei"; "de'u"; "di'e"; "da'e"; "di'u";
    "do'i"; "ko"; "ma'a"; "mi"; "mi'a"; "do"; "do'o"; "mi'o"; "vo'a"; "vo'e";
    "vo'i"; "vo'o"; "vo'u"; "fo'a"; "fo'e"; "fo'i"; "fo'o"; "fo'u"; "ko'a";
    "ko'e"; "ko'i"; "ko'o"; "ko'u"; "ra"; "ru"; "ri"; "ti"; "tu"; "ta"; "ke'a";
    "ma"; "zi'o"; "zo'e"; "zu'i"; "ce'u"], S_Koha, false);
  (* classify.rs:180-184 *)
  (Lits ["kau'a"; "kau'e"; "kau'i"; "da'au"; "lau'e"; "lau'u"; "dei'ei"; "ra'au";
    "da'ai"; "do'o'o"; "mi'ai"; "mi'oi"; "vau'a"; "vau'e"; "vau'o"; "vau'u";
    "ri'au"; "xai"; "zoi'i"; "tu'oi"; "tu'oi'u"; "ca'au"; "di'au"; "di'ei";
    "di'oi"; "do'au"; "do'ei"; "mai'i"; "nau'o"; "nau'u"; "zai'o"; "sy'y";
    "zu'ai"; "bo'i"; "bo'o"; "bo'u"; "bo'a"; "bo'e"], S_Koha, true);
  (* classify.rs:185 *)
  (Lits ["ku"], S_Ku, false);
  (* classify.rs:186 *)
  (Lits ["ku'e"], S_Kuhe, false);
  (* classify.rs:187 *)
  (Lits ["ku'o"], S_Kuho, false);
  (* classify.rs:188 *)
  (Lits ["la"; "la'i"; "lai"], S_La, false);
  (* classify.rs:189 *)
  (Lits ["lai'u"; "la'ei"], S_La, true);
  (* classify.rs:190 *)
  (Lits ["lau"; "tau"; "zai"; "ce'a"], S_Lau, false);
  (* classify.rs:191 *)
  (Lits ["la'e"; "tu'a"; "vu'i"; "lu'a"; "lu'e"; "lu'i"; "lu'o"], S_Lahe, false);
  (* classify.rs:192-194 *)
  (Lits ["tau'e"; "lai'e"; "la'e'au"; "lu'au"; "cei'u"; "du'au"; "moi'a";
    "zo'ei"], S_Lahe, true);
  (* classify.rs:195 *)
  (Lits ["le"; "le'e"; "le'i"; "lei"; "lo"; "lo'e"; "lo'i"; "loi"], S_Le, false);
  (* classify.rs:196-198 *)
  (Lits ["dau'u"; "ji'ai"; "kai'i"; "le'ei"; "lei'e"; "lei'i"; "lo'au"; "loi'a";
    "loi'e"; "loi'i"; "lo'o'o"; "ly'ei"; "me'ei"; "moi'oi"; "mo'oi"; "nei'i";
    "ri'oi"; "ti'oi"; "xai'i"; "zo'ai"; "zy'oi"], S_Le, true);
  (* classify.rs:199 *)
  (Lits ["le'u"], S_Lehu, false);
  (* classify.rs:200 *)
  (Lits ["li"; "me'o"], S_Li, false);
  (* classify.rs:201 *)
  (Lits ["li'ai"; "na'au"], S_Li, true);
  (* classify.rs:202 *)
  (Lits ["li'u"], S_Lihu, false);
  (* classify.rs:203 *)
  (Lits ["lo'o"], S_Loho, false);
  (* classify.rs:204 *)
  (Lits ["lo'u"], S_Lohu, false);
  (* classify.rs:205 *)
  (Lits ["la'ai"], S_Lohu, true);
  (* classify.rs:206 *)
  (Lits ["lu"], S_Lu, false);
  (* classify.rs:207 *)
  (Lits ["lu'u"], S_Luhu, false);
  (* classify.rs:208 *)
  (Lits ["la'au"; "tu'ai"], S_Lu, true);
  (* classify.rs:209 *)
  (Lits ["mai"; "mo'o"], S_Mai, false);
  (* classify.rs:210 *)
  (Lits ["sai'ei"; "ju'ai"; "lai'a"; "ba'ai"], S_Mai, true);
  (* classify.rs:211 *)
  (Lits ["ma'o"], S_Maho, false);
  (* classify.rs:212 *)
  (Lits ["me"], S_Me, false);
  (* classify.rs:213 *)
  (Lits ["du'ai"; "me'au"; "mei'u"], S_Me, true);
  (* classify.rs:214 *)
  (Lits ["me'u"], S_Mehu, false);
  (* classify.rs:215 *)
  (Lits ["moi"; "si'e"; "va'e"; "mei"; "cu'o"], S_Moi, false);
  (* classify.rs:216-217 *)
  (Lits ["jei'o"; "ka'oi"; "lei'o"; "cei'a"; "cu'oi'e"; "coi'e"; "doi'e"; "mei'i";
    "moi'e"; "moi'o"; "moi'u"; "nei'o"; "soi'e"], S_Moi, true);
  (* classify.rs:218 *)
  (Lits ["mo'e"], S_Mohe, false);
  (* classify.rs:219 *)
  (Lits ["mo'i"], S_Mohi, false);
  (* classify.rs:220 *)
  (Lits ["na"; "ja'a"], S_Na, false);
  (* classify.rs:221 *)
  (Lits ["xa'au"; "xu'o'e"; "cau'a"; "mai'a"; "mai'e"; "na'ai"], S_Na, true);
  (* classify.rs:222 *)
  (Lits ["nai"], S_Nai, false);
  (* classify.rs:223 *)
  (Lits ["ja'ai"], S_Nai, true);
  (* classify.rs:224 *)
  (Lits ["na'e"; "to'e"; "je'a"; "no'e"], S_Nahe, false);
  (* classify.rs:225-226 *)
  (Lits ["rai'a"; "rei'e"; "sai'e"; "gu'y"; "je'ai"; "cai'e"; "cau'e"; "cau'o'e";
    "na'ei"; "ni'u'u"; "noi'e"; "pai'e"], S_Nahe, true);
  (* classify.rs:227 *)
  (Lits ["na'u"], S_Nahu, false);
  (* classify.rs:228 *)
  (Lits ["ni'e"], S_Nihe, false);
  (* classify.rs:229 *)
  (Lits ["ni'o"; "no'i"], S_Niho, false);
  (* classify.rs:230 *)
  (Lits ["noi"; "poi"; "voi"], S_Noi, false);
  (* classify.rs:231 *)
  (Lits ["voi'i"], S_Noi, true);
  (* classify.rs:232-233 *)
  (Lits ["nu"; "si'o"; "jei"; "ka"; "li'i"; "du'u"; "ni"; "su'u"; "pu'u"; "za'i";
    "mu'e"; "zu'o"], S_Nu, false);
  (* classify.rs:234-235 *)
  (Lits ["poi'i"; "te'oi"; "ga'ei"; "ka'ei"; "kai'ei"; "kai'u"; "ka'oi'i";
    "bu'ai"; "ni'ai"; "xe'ei"], S_Nu, true);
  (* classify.rs:236 *)
  (Lits ["nu'a"], S_Nuha, false);
  (* classify.rs:237 *)
  (Lits ["nu'i"], S_Nuhi, false);
  (* classify.rs:238 *)
  (Lits ["nu'u"], S_Nuhu, false);
  (* classify.rs:239-244 *)
  (Lits ["bi"; "ce'i"; "ci"; "ci'i"; "da'a"; "dau"; "du'e"; "fei"; "fi'u"; "gai";
    "jau"; "ji'i"; "ka'o"; "ki'o"; "ma'u"; "me'i"; "mo'a"; "mu"; "ni'u"; "no";
    "no'o"; "pa"; "pai"; "pi"; "pi'e"; "ra'e"; "rau"; "re"; "rei"; "ro"; "so";
    "so'a"; "so'e"; "so'i"; "so'o"; "so'u"; "su'e"; "su'o"; "te'o"; "tu'o"; "vai";
    "vo"; "xa"; "xo"; "za'u"; "ze"; "1"; "2"; "3"; "4"; "5"; "6"; "7"; "8"; "9";
    "0"], S_Pa, false);
  (* classify.rs:245-256 *)
  (Lits ["bi'ei"; "by'ai"; "ci'i'e"; "ci'i'o"; "ci'i'oi"; "dau'e"; "dy'ei";
    "fai'e'au"; "fai'u"; "fai'u'a"; "fu'a'ai"; "fu'a'au"; "fy'ai"; "ga'au";
    "gau'i'o"; "go'o'i'a"; "ja'au"; "ka'ei'a"; "ka'o'ai"; "ka'o'ei"; "kai'o";
    "kau'o"; "kei'ei"; "kei'o"; "koi'o"; "ku'i'a"; "lai'ai"; "mai'e'e"; "mei'a";
    "mu'i'ai"; "mu'i'u"; "na'a'u"; "ni'e'ei"; "ni'e'oi"; "no'ai"; "no'e'u";
    "ny'ei"; "pa'au'o"; "pei'i'a"; "pi'au"; "pu'e'u'o"; "py'ai"; "ro'oi"; "ru'oi";
    "sai'i"; "se'i'i"; "sei'a"; "sei'u'e"; "si'ei"; "si'i'ai"; "so'au"; "soi'ai";
    "soi'au"; "su'ai"; "su'au"; "su'o'o"; "su'oi"; "sy'au"; "tau'u"; "va'ei'a";
    "vau'au'o"; "vo'ei'a"; "vu'ai"; "xe'a"; "xe'e"; "xei"; "xi'i'ei"; "xo'au";
    "xo'e"; "xy'au"; "zau'u"; "ze'au"; "zy'ei"; " vi'ei'e"], S_Pa, true);
  (* classify.rs:257 *)
  (Lits ["pe'e"], S_Pehe, false);
  (* classify.rs:258 *)
  (Lits ["pe'o"], S_Peho, false);
  (* classify.rs:259 *)
  (Lits ["kei'ai"], S_Peho, true);
  (* classify.rs:260 *)
  (Lits ["pu"; "ba"; "ca"], S_Pu, false);
  (* classify.rs:261 *)
  (Lits ["xa'ei"], S_Pu, true);
  (* classify.rs:262 *)
  (Lits ["ra'o"], S_Raho, false);
  (* classify.rs:263 *)
  (Lits ["roi"; "re'u"], S_Roi, false);
  (* classify.rs:264 *)
  (Lits ["va'ei"; "ba'oi"; "de'ei"; "mu'ei"], S_Roi, true);
  (* classify.rs:265 *)
  (Lits ["sa"], S_Sa, false);
  (* classify.rs:266 *)
  (Lits ["se"; "te"; "ve"; "xe"], S_Se, false);
  (* classify.rs:267-270 *)
  (Lits ["re'au'e"; "se'ai'e"; "se'au'e"; "se'o'e"; "se'u'o"; "to'ai"; "tu'ei";
    "vo'ai"; "xo'ai"; "ko'ei"; "lu'oi"; "ze'ai'e"; "ze'au'e"; "so'o'o'oi";
    "su'ei"], S_Se, true);
  (* classify.rs:271 *)
  (Lits ["sei"; "ti'o"], S_Sei, false);
  (* classify.rs:272 *)
  (Lits ["sei'e"; "le'au"; "cei'e"], S_Sei, true);
  (* classify.rs:273 *)
  (Lits ["se'u"], S_Sehu, false);
  (* classify.rs:274 *)
  (Lits ["si"], S_Si, false);
  (* classify.rs:275 *)
  (Lits ["si'au'i"; "ze'ei"], S_Si, true);
  (* classify.rs:276 *)
  (Lits ["soi"], S_Soi, false);
  (* classify.rs:277 *)
  (Lits ["su"], S_Su, false);
  (* classify.rs:278 *)
  (Lits ["ta'e"; "ru'i"; "di'i"; "na'o"], S_Tahe, false);
  (* classify.rs:279 *)
  (Lits ["dei'a"; "ze'ai"; "zei'a"], S_Tahe, true);
  (* classify.rs:280 *)
  (Lits ["tei"], S_Tei, false);
  (* classify.rs:281 *)
  (Lits ["te'u"], S_Tehu, false);
  (* classify.rs:282 *)
  (Lits ["to"; "to'i"], S_To, false);
  (* classify.rs:283 *)
  (Lits ["toi"], S_Toi, false);
  (* classify.rs:284 *)
  (Lits ["tu'e"], S_Tuhe, false);
  (* classify.rs:285 *)
  (Lits ["tu'u"], S_Tuhu, false);
  (* classify.rs:286-296 *)
  (Lits ["a'a"; "a'e"; "a'i"; "ai"; "a'o"; "a'u"; "au"; "ba'a"; "ba'u"; "be'u";
    "bi'u"; "bu'o"; "ca'e"; "da'i"; "dai"; "do'a"; "e'a"; "e'e"; "e'i"; "ei";
    "e'o"; "e'u"; "fu'i"; "ga'i"; "ge'e"; "i'a"; "ia"; "i'e"; "ie"; "i'i"; "ii";
    "i'o"; "io"; "i'u"; "iu"; "ja'o"; "je'u"; "ji'a"; "jo'a"; "ju'a"; "ju'o";
    "ka'u"; "kau"; "ke'u"; "ki'a"; "ku'i"; "la'a"; "le'o"; "li'a"; "li'o"; "mi'u";
    "mu'a"; "na'i"; "o'a"; "o'e"; "o'i"; "oi"; "o'o"; "o'u"; "pa'e"; "pau";
    "pe'a"; "pe'i"; "po'o"; "ra'u"; "re'e"; "ri'e"; "ro'a"; "ro'e"; "ro'i";
    "ro'o"; "ro'u"; "ru'a"; "sa'a"; "sa'e"; "sa'u"; "se'a"; "se'i"; "se'o";
    "si'a"; "su'a"; "ta'o"; "ta'u"; "ti'e"; "to'u"; "u'a"; "ua"; "u'e"; "ue";
    "u'i"; "ui"; "u'o"; "uo"; "u'u"; "uu"; "va'i"; "vu'e"; "xu"; "za'a"; "zo'o";
    "zu'u"], S_Ui, false);
  (* classify.rs:297-309 *)
  (Lits ["fai'a"; "rau'o"; "si'ai"; "tai'a"; "tei'i"; "tei'o"; "uau'o"; "ue'e";
    "uei'e"; "ui'a"; "ui'o"; "va'u'au"; "fu'ei'a"; "fu'ei'e"; "fu'ei'i";
    "fi'ei'o"; "fu'ei'u"; "ii'au"; "au'o"; "a'u'u"; "ca'e'ei"; "ci'ai"; "cu'ei";
    "cu'ei'a"; "cu'ei'ai"; "cu'ei'e"; "cu'ei'ei"; "cu'ei'i"; "cu'ei'o";
    "cu'ei'oi"; "cu'ei'u"; "coi'o'e"; "doi'au"; "e'au"; "ei'u"; "mu'au'oi";
    "oi'a"; "pau'ai"; "pau'i"; "zei'i"; "su'a'a"; "zi'ei"; "u'ai"; "uai"; "uau";
    "ue'i"; "ui'i"; "uo'o"; "uu'i"; "ia'u"; "ie'e"; "ie'i"; "a'au"; "ai'i";
    "au'u"; "ci'au'u'au'i"; "e'ei"; "ei'au"; "ei'e"; "ei'i"; "mau'u"; "mi'au";
    "ne'au"; "oi'o"; "oi'u"; "ri'ai"; "sei'i"; "si'au"; "jei'u"; "ju'oi"; "kai'a";
    "kai'e"; "ki'au"; "lai'i"; "moi'i"; "pei'e"; "za'au"; "vo'oi"; "vei'i";
    "ta'ei"; "te'i'o"; "xa'i"; "xu'a"; "fu'au"; "je'au"; "so'ei"; "sy'a"; "xe'o";
    "roi'i"; "pei'o"; "ra'i'au"; "xo'o"; "jau'i"; "ji'ei"; "bo'oi"; "dai'a";
    "noi'u"; "zai'a"; "ki'a'au'u'au'i"; "ko'oi"; CUHUHU_ETC], S_Ui, true);
  (* classify.rs:310 *)
  (Lits ["va"; "vi"; "vu"], S_Va, false);
  (* classify.rs:311 *)
  (Lits ["xa'e"], S_Va, true);
  (* classify.rs:312 *)
  (Lits ["vau"], S_Vau, false);
  (* classify.rs:313 *)
  (Lits ["vei"], S_Vei, false);
  (* classify.rs:314 *)
  (Lits ["ve'a"; "ve'e"; "ve'i"; "ve'u"], S_Veha, false);
  (* classify.rs:315 *)
  (Lits ["ve'o"], S_Veho, false);
  (* classify.rs:316 *)
  (Lits ["ve'oi"], S_Veho, true);
  (* classify.rs:317 *)
  (Lits ["vi'a"; "vi'u"; "vi'e"; "vi'i"], S_Viha, false);
  (* classify.rs:318 *)
  (Lits ["vu'o"], S_Vuho, false);
  (* classify.rs:319-321 *)
  (Lits ["cu'a"; "de'o"; "fa'i"; "fe'a"; "fe'i"; "fu'u"; "ge'a"; "gei"; "ju'u";
    "ne'o"; "pa'i"; "pi'a"; "pi'i"; "re'a"; "ri'o"; "sa'i"; "sa'o"; "si'i";
    "su'i"; "te'a"; "va'a"; "vu'u"], S_Vuhu, false);
  (* classify.rs:322-335 *)
  (Lits ["bai'ei"; "bai'i"; "bai'i'i"; "be'ei'oi"; "bei'u'i"; "boi'ai"; "ca'ei'a";
    "ca'o'e"; "ca'oi"; "ci'ai'u"; "ci'au'i"; "ci'o'au"; "cu'ai"; "cu'au'ei";
    "da'a'au"; "de'au'u"; "dei'au'o"; "di'ei'o'au"; "du'a'e"; "du'a'o"; "du'ei";
    "fa'ai"; "fa'ai'ai"; "fa'au"; "fau'i"; "fe'au'u"; "fe'ei"; "fei'i"; "ga'ai";
    "gau'a"; "gu'ai"; "gu'au'i"; "jau'au"; "je'e'e"; "ji'e'ai"; "ji'i'u";
    "ji'i'u'u"; "joi'i"; "ka'au"; "ku'au'a"; "lau'au"; "ma'au"; "mai'u"; "ma'o'e";
    "me'ei'o"; "mu'ai'au"; "mu'au"; "nei'au"; "ne'oi"; "no'au'au"; "pau'a'u";
    "pau'ei"; "pau'oi"; "pei'e'a"; "pi'au'e"; "pi'ei"; "pi'ei'au"; "pi'ei'oi";
    "po'i'oi"; "ra'i'e"; "rai'i"; "ru'ei"; "sau'i"; "se'i'a'o"; "si'oi'e";
    "su'i'e"; "su'i'o"; "tai'e'i"; "tai'i'e"; "te'au'u"; "te'i'ai"; "tei'au";
    "te'o'a"; "te'oi'i"; "to'ei'au"; "vau'i"; "vei'u"; "vi'oi'au"; "vo'au'u";
    "xa'ai"; "xo'ei"; "xo'e'o'ei"; "za'ei"; "zei'i'au"; "zi'a'o"; "zu'oi"],
    S_Vuhu, true);
  (* classify.rs:336 *)
  (Lits ["xi"], S_Xi, false);
  (* classify.rs:337 *)
  (Lits ["fau'e"; "te'ai"; "xi'e"; "xi'i"], S_Xi, true);
  (* classify.rs:338 *)
  (AllY, S_Y, false);
  (* classify.rs:339 *)
  (Lits ["ie'o"; "ko'o'o'o'o"], S_Y, true);
  (* classify.rs:340-342 *)
  (Lits ["za'o"; "ba'o"; "pu'o"; "ca'o"; "co'a"; "co'i"; "co'u"; "de'a"; "di'a";
    "mo'u"], S_Zaho, false);
  (* classify.rs:343-345 *)
  (Lits ["sau'a"; "xo'u"; "ca'o'a"; "co'a'a"; "co'au'a"; "co'u'a"; "xa'o"],
    S_Zaho, true);
  (* classify.rs:346 *)
  (Lits ["zei"], S_Zei, false);
  (* classify.rs:347 *)
  (Lits ["ze'a"; "ze'e"; "ze'i"; "ze'u"], S_Zeha, false);
  (* classify.rs:348 *)
  (Lits ["zei'au"], S_Zeha, true);
  (* classify.rs:349 *)
  (Lits ["zi"; "za"; "zu"], S_Zi, false);
  (* classify.rs:350 *)
  (Lits ["za'ai"], S_Zi, true);
  (* classify.rs:351 *)
  (Lits ["zi'e"], S_Zihe, false);
  (* classify.rs:352 *)
  (Lits ["zo"], S_Zo, false);
  (* classify.rs:353 *)
  (Lits ["ra'ai"; "doi'u"; "ma'oi"; "ma'oi'e"], S_Zo, true);
  (* classify.rs:354 *)
  (Lits ["zoi"; "la'o"], S_Zoi, false);
  (* classify.rs:355 *)
  (Lits ["zo'u"], S_Zohu, false);
  (* classify.rs:356 *)
  (Lits ["fi'ai"; "ge'ai"; "ke'au"; "ce'ai"], S_Zohu, true);
  (* classify.rs:359 *)
  (Lits ["ba'ei"], S_Bahei, false);
  (* classify.rs:360 *)
  (Lits ["bei'e"], S_Beihe, false);
  (* classify.rs:361 *)
  (Lits ["boi'oi"], S_Boihoi, false);
  (* classify.rs:362 *)
  (Lits ["ca'ei"; "pu'ei"], S_Cahei, false);
  (* classify.rs:363 *)
  (Lits ["ce'ei'oi"], S_Ceheihoi, false);
  (* classify.rs:364 *)
  (Lits ["co'ai"], S_Cohai, false);
  (* classify.rs:365 *)
  (Lits ["co'e'o'e"], S_Cohehohe, false);
  (* classify.rs:366 *)
  (Lits ["co'u'o"], S_Cohuho, false);
  (* classify.rs:367 *)
  (Lits ["cu'au"], S_Cuhau, false);
  (* classify.rs:368 *)
  (Lits ["dau'o"], S_Dauho, false);
  (* classify.rs:369 *)
  (Lits ["de'ai"], S_Dehai, false);
  (* classify.rs:370 *)
  (Lits ["dau'a"; "de'au"; "de'oi"; "doi'a"], S_Dehau, false);
  (* classify.rs:371 *)
  (Lits ["do'oi"], S_Dohoi, false);
  (* classify.rs:372 *)
  (Lits ["fau'a"; "fau'ai"], S_Fauha, false);
  (* classify.rs:373 *)
  (Lits ["fa'o'o"], S_Fahoho, false);
  (* classify.rs:374 *)
  (Lits ["fi'oi"], S_Fihoi, false);
  (* classify.rs:375 *)
  (Lits ["foi'e"], S_Foihe, false);
  (* classify.rs:376 *)
  (Lits ["ga'u'au"; "ni'a'a"], S_Gahuhau, false);
  (* classify.rs:377 *)
  (Lits ["ge'u'i"], S_Gehuhi, false);
  (* classify.rs:378 *)
  (Lits ["gi'ei"], S_Gihei, false);
  (* classify.rs:379 *)
  (Lits ["gi'oi"], S_Gihoi, false);
  (* classify.rs:380 *)
  (Lits ["bo'ei"; "go'oi"; "sau'e"; "ta'ai"; "ze'oi"], S_Gohoi, false);
  (* classify.rs:381 *)
  (Lits ["iau"; "i'au"], S_Ihau, false);
  (* classify.rs:382 *)
  (Lits ["jai'a"], S_Jaiha, false);
  (* classify.rs:383 *)
  (Lits ["jai'i"], S_Jaihi, false);
  (* classify.rs:384 *)
  (Lits ["jau'u"], S_Jauhu, false);
  (* classify.rs:385 *)
  (Lits ["fau'au"; "ja'oi"], S_Jahoi, false);
  (* classify.rs:386 *)
  (Lits ["ji'oi"; "ni'oi"], S_Jihoi, false);
  (* classify.rs:387 *)
  (Lits ["boi'au"; "fa'ei"; "gei'i'e"], S_Joihi, false);
  (* classify.rs:388 *)
  (Lits ["xa'ei'o"; "xa'ei'u"], S_Johe, false);
  (* classify.rs:389 *)
  (Lits ["ju'au"], S_Juhau, false);
  (* classify.rs:390 *)
  (Lits ["ju'ei"], S_Juhei, false);
  (* classify.rs:391 *)
  (Lits ["ju'u'i"], S_Juhuhi, false);
  (* classify.rs:392 *)
  (Lits ["kau'ai"; "kau'au"], S_Kauhai, false);
  (* classify.rs:393 *)
  (Lits ["kau'u"], S_Kauhu, false);
  (* classify.rs:394 *)
  (Lits ["kei'au"], S_Keihau, false);
  (* classify.rs:395 *)
  (Lits ["kei'i"], S_Keihi, false);
  (* classify.rs:396 *)
  (Lits ["ke'ei"], S_Kehei, false);
  (* classify.rs:397 *)
  (Lits ["ke'ei'a"], S_Keheiha, false);
  (* classify.rs:398 *)
  (Lits ["ke'e'au"], S_Kehehau, false);
  (* classify.rs:399 *)
  (Lits ["ke'e'u"], S_Kehehu, false);
  (* classify.rs:400 *)
  (Lits ["ke'u'i"], S_Kehuhi, false);
  (* classify.rs:401 *)
  (Lits ["ku'au"], S_Kuhau, false);
  (* classify.rs:402 *)
  (Lits ["ku'ei"], S_Kuhei, false);
  (* classify.rs:403 *)
  (Lits ["ku'oi'u"], S_Kuhoihu, false);
  (* classify.rs:404 *)
  (Lits ["fy'oi"; "ky'oi"], S_Kyhoi, false);
  (* classify.rs:405 *)
  (Lits ["le'ai"], S_Lehai, false);
  (* classify.rs:406 *)
  (Lits ["li'au"], S_Lihau, false);
  (* classify.rs:407 *)
  (Lits ["li'ei"], S_Lihei, false);
  (* classify.rs:408 *)
  (Lits ["lo'ai"; "sa'ai"], S_Lohai, false);
  (* classify.rs:409 *)
  (Lits ["fo'ai"; "ko'ai"; "koi'i"; "lo'oi"; "mau'a"; "xau'a"; "xu'u"], S_Lohoi,
    false);
  (* classify.rs:410 *)
  (Lits ["lu'ei"], S_Luhei, false);
  (* classify.rs:411 *)
  (Lits ["mau'au"], S_Mauhau, false);
  (* classify.rs:412 *)
  (Lits ["mau'e"], S_Mauhe, false);
  (* classify.rs:413 *)
  (Lits ["mau'o"], S_Mauho, false);
  (* classify.rs:414 *)
  (Lits ["mei'e"], S_Meihe, false);
  (* classify.rs:415 *)
  (Lits ["mei'o"], S_Meiho, false);
  (* classify.rs:416 *)
  (Lits ["me'oi"], S_Mehoi, false);
  (* classify.rs:417 *)
  (Lits ["mu'oi"], S_Muhoi, false);
  (* classify.rs:418 *)
  (Lits ["mu'o'u"], S_Muhohu, false);
  (* classify.rs:419 *)
  (Lits ["nei'ai"], S_Neihai, false);
  (* classify.rs:420 *)
  (Lits ["noi'a"; "poi'a"; "poi'o'a"; "soi'a"], S_Noiha, false);
  (* classify.rs:421 *)
  (Lits ["noi'au"; "poi'au"], S_Noihau, false);
  (* classify.rs:422 *)
  (Lits ["noi'a'u"; "poi'a'u"], S_Noihahu, false);
  (* classify.rs:423 *)
  (Lits ["noi'i"], S_Noihi, false);
  (* classify.rs:424 *)
  (Lits ["no'oi"; "po'oi"], S_Nohoi, false);
  (* classify.rs:425 *)
  (Lits ["rau'oi"], S_Rauho, false);
  (* classify.rs:426 *)
  (Lits ["re'ai'e"], S_Rehaihe, false);
  (* classify.rs:427 *)
  (Lits ["sau'u"], S_Sauhu, false);
  (* classify.rs:428 *)
  (Lits ["sa'au"], S_Sahau, false);
  (* classify.rs:429 *)
  (Lits ["sa'oi"], S_Sahoi, false);
  (* classify.rs:430 *)
  (Lits ["sei'au"], S_Seihau, false);
  (* classify.rs:431 *)
  (Lits ["sei'o"], S_Seiho, false);
  (* classify.rs:432-433 *)
  (Lits ["se'e'i"; "te'e'a"; "te'e'i"; "ve'e'a"; "ve'e'i"; "ve'e'u"; "xe'e'i";
    "xe'e'o"; "xe'e'u"; "ze'e'a"; "ze'e'au"; "ze'e'e"; "ze'e'i"; "ze'e'o";
    "ze'e'u"], S_Sehehi, false);
  (* classify.rs:434 *)
  (Lits ["se'oi'oi"], S_Sehoihoi, false);
  (* classify.rs:435 *)
  (Lits ["si'i'ei"], S_Sihihei, false);
  (* classify.rs:436 *)
  (Lits ["si'i'oi"], S_Sihihoi, false);
  (* classify.rs:437 *)
  (Lits ["si'oi"], S_Sihoi, false);
  (* classify.rs:438 *)
  (Lits ["soi'i"], S_Soihi, false);
  (* classify.rs:439 *)
  (Lits ["so'e'ai"], S_Sohehai, false);
  (* classify.rs:440 *)
  (Lits ["so'oi"], S_Sohoi, false);
  (* classify.rs:441 *)
  (Lits ["tai'u"], S_Taihu, false);
  (* classify.rs:442 *)
  (Lits ["tau'o"], S_Tauho, false);
  (* classify.rs:443 *)
  (Lits ["ta'oi"], S_Tahoi, false);
  (* classify.rs:444 *)
  (Lits ["ta'u'i"; "ta'u'u"], S_Tahuhi, false);
  (* classify.rs:445 *)
  (Lits ["tei'u"], S_Teihu, false);
  (* classify.rs:446 *)
  (Lits ["te'oi'oi"], S_Tehoihoi, false);
  (* classify.rs:447 *)
  (Lits ["toi'e"], S_Toihe, false);
  (* classify.rs:448 *)
  (Lits ["toi'o"], S_Toiho, false);
  (* classify.rs:449 *)
  (Lits ["vau'e'oi"], S_Vauhehoi, false);
  (* classify.rs:450 *)
  (Lits ["vau'o'oi"], S_Vauhohoi, false);
  (* classify.rs:451 *)
  (Lits ["vu'oi"], S_Vuhoi, false);
  (* classify.rs:452 *)
  (Lits ["vy'y"], S_Vyhy, false);
  (* classify.rs:453 *)
  (Lits ["xau'e'o"], S_Xauheho, false);
  (* classify.rs:454 *)
  (Lits ["xa'oi'a'oi'a"], S_Xahoihahoiha, false);
  (* classify.rs:455 *)
  (Lits ["xe'au"], S_Xehau, false);
  (* classify.rs:456 *)
  (Lits ["no'au"; "xoi"], S_Xoi, false);
  (* classify.rs:457 *)
  (Lits ["xo'a"], S_Xoha, false);
  (* classify.rs:458 *)
  (Lits ["xo'e'o'e"], S_Xohehohe, false);
  (* classify.rs:459 *)
  (Lits ["xo'i"], S_Xohi, false);
  (* classify.rs:460 *)
  (Lits ["xu'au"], S_Xuhau, false);
  (* classify.rs:461 *)
  (Lits ["ji'o'e"; "y'i"], S_Yhi, false);
  (* classify.rs:462 *)
  (Lits ["zai'ai"], S_Zaihai, false);
  (* classify.rs:463 *)
  (Lits ["rai'o"; "zai'u"], S_Zaihu, false);
  (* classify.rs:464 *)
  (Lits ["zau'e'u"], S_Zauhehu, false);
  (* classify.rs:465 *)
  (Lits ["zei'ei"], S_Zeihei, false);
  (* classify.rs:466 *)
  (Lits ["zei'oi"], S_Zeihoi, false);
  (* classify.rs:467 *)
  (Lits ["zi'e'a"; "zi'e'e"; "zi'e'i"; "zi'e'o"; "zi'e'u"], S_Ziheha, false);
  (* classify.rs:468 *)
  (Lits ["zi'e'au"], S_Zihehau, false);
  (* classify.rs:469 *)
  (Lits ["zei'o"; "zi'oi"], S_Zihoi, false);
  (* classify.rs:470 *)
  (Lits ["zoi'ai"], S_Zoihai, false);
  (* classify.rs:471 *)
  (Lits ["zoi'ai'e"; "zoi'o'e"], S_Zoihohe, false);
  (* classify.rs:472 *)
  (Lits ["zo'au"], S_Zohau, false);
  (* classify.rs:473 *)
  (Lits ["zo'e'u"], S_Zohehu, false);
  (* classify.rs:474 *)
  (Lits ["zo'i'o"], S_Zohiho, false);
  (* classify.rs:475 *)
  (Lits ["la'oi"; "ra'oi"; "zo'oi"], S_Zohoi, false)
].
