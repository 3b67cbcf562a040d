(** Rules.v -- the morphology rules of /repo/src/rules.rs:209-898, one
    constructor of [nt] and one equation of [rule] per Rust function, in source
    order, each with its lines in rules.rs.  The [debug_rule] attribute
    (macros/src/lib.rs) only logs and is not modelled, nor are the functions
    that are never called ([_slice_until_sub], the [peek!] macro).
    No proofs in this file. *)
From Verif Require Import Base Peg.

Inductive nt : Type :=
| N_h | N_b | N_c | N_d | N_f | N_g | N_j | N_k | N_l | N_m | N_n | N_p | N_r
| N_s | N_t | N_v | N_x | N_z | N_liquid | N_syllabic | N_voiced | N_unvoiced
| N_consonant | N_other | N_sibilant | N_affricate | N_a | N_e | N_i | N_o |
N_u | N_y | N_vowel | N_diphthong | N_nucleus | N_glide | N_digit | N_cmevla |
N_cvcy_lujvo | N_cluster | N_initial | N_onset | N_stressed | N_cmavo_form |
N_post_word | N_initial_pair | N_consonantal_syllable | N_any_syllable |
N_coda | N_syllable | N_stress | N_explicitly_stressed_vowel |
N_stressed_vowel | N_final_syllable | N_gismu | N_cvc_rafsi | N_ccv_rafsi |
N_unstressed_vowel | N_unstressed_diphthong | N_r_hyphen | N_cvv_rafsi |
N_y_less_rafsi | N_cvv_final_rafsi | N_stressed_cvc_rafsi |
N_stressed_ccv_rafsi | N_stressed_diphthong | N_stressed_cvv_rafsi |
N_stressed_y_less_rafsi | N_long_rafsi | N_hy_rafsi | N_stressed_hy_rafsi |
N_y_rafsi | N_stressed_long_rafsi | N_stressed_y_rafsi | N_short_final_rafsi |
N_rafsi_string | N_slinkuhi | N_unstressed_syllable | N_brivla_head |
N_fuhivla_head | N_explicitly_stressed_syllable | N_stressed_syllable |
N_fuhivla | N_brivla_rafsi | N_fuhivla_rafsi | N_extended_rafsi |
N_stressed_brivla_rafsi | N_stressed_fuhivla_rafsi | N_stressed_extended_rafsi
| N_any_extended_rafsi | N_initial_rafsi | N_stressed_initial_rafsi |
N_brivla_core | N_explicitly_stressed_gismu_minimal | N_final_syllable_minimal
| N_explicitly_stressed_fuhivla_minimal |
N_explicitly_stressed_cvv_final_rafsi | N_explicitly_stressed_brivla_rafsi |
N_explicitly_stressed_fuhivla_rafsi | N_explicitly_stressed_extended_rafsi |
N_explicitly_stressed_long_rafsi | N_explicitly_stressed_cvc_rafsi |
N_explicitly_stressed_y_rafsi | N_explicitly_stressed_ccv_rafsi |
N_explicitly_stressed_diphthong | N_explicitly_stressed_cvv_rafsi |
N_explicitly_stressed_y_less_rafsi | N_explicitly_stressed_initial_rafsi |
N_explicitly_stressed_brivla_core | N_explicitly_stressed_brivla_minimal |
N_lujvo | N_lujvo_minimal | N_brivla | N_brivla_minimal | N_lojban_word |
N_cmavo | N_cmavo_minimal | N_cmavo_semi_minimal.

Definition CallC (x : nt) : pexp nt := Call x.
Coercion CallC : nt >-> pexp.

Notation "'or![' x ; .. ; y ]" :=
  (Or (@cons (pexp nt) x .. (@cons (pexp nt) y nil) ..)) (at level 0).
Notation "'longest![' x ; .. ; y ]" :=
  (Longest (@cons (pexp nt) x .. (@cons (pexp nt) y nil) ..)) (at level 0).
Notation "'seq![' x ]" := (Seq x nil) (at level 0).
Notation "'seq![' x ; y ; .. ; z ]" :=
  (Seq x (@cons (pexp nt) y .. (@cons (pexp nt) z nil) ..)) (at level 0).

Definition rule (x : nt) : pexp nt :=
  match x with
  (* rules.rs:209-211 *)
    | N_h => (AndPeek (One (lit "'h")) N_nucleus)
  (* rules.rs:221 (macro 213-219) *)
    | N_b => (AndNot (One (lit "bB")) or![N_h; N_glide; N_b; N_unvoiced])
  (* rules.rs:222 (macro 213-219) *)
    | N_c => (AndNot (One (lit "cC")) or![N_h; N_glide; N_c; N_s; N_x; N_voiced])
  (* rules.rs:223 (macro 213-219) *)
    | N_d => (AndNot (One (lit "dD")) or![N_h; N_glide; N_d; N_unvoiced])
  (* rules.rs:224 (macro 213-219) *)
    | N_f => (AndNot (One (lit "fF")) or![N_h; N_glide; N_f; N_voiced])
  (* rules.rs:225 (macro 213-219) *)
    | N_g => (AndNot (One (lit "gG")) or![N_h; N_glide; N_g; N_unvoiced])
  (* rules.rs:226 (macro 213-219) *)
    | N_j => (AndNot (One (lit "jJ")) or![N_h; N_glide; N_j; N_z; N_unvoiced])
  (* rules.rs:227 (macro 213-219) *)
    | N_k => (AndNot (One (lit "kK")) or![N_h; N_glide; N_k; N_x; N_voiced])
  (* rules.rs:228 (macro 213-219) *)
    | N_l => (AndNot (One (lit "lL")) or![N_h; N_glide; N_l])
  (* rules.rs:229 (macro 213-219) *)
    | N_m => (AndNot (One (lit "mM")) or![N_h; N_glide; N_m; N_z])
  (* rules.rs:230 (macro 213-219) *)
    | N_n => (AndNot (One (lit "nN")) or![N_h; N_glide; N_n; N_affricate])
  (* rules.rs:231 (macro 213-219) *)
    | N_p => (AndNot (One (lit "pP")) or![N_h; N_glide; N_p; N_voiced])
  (* rules.rs:232 (macro 213-219) *)
    | N_r => (AndNot (One (lit "rR")) or![N_h; N_glide; N_r])
  (* rules.rs:233 (macro 213-219) *)
    | N_s => (AndNot (One (lit "sS")) or![N_h; N_glide; N_s; N_c; N_voiced])
  (* rules.rs:234 (macro 213-219) *)
    | N_t => (AndNot (One (lit "tT")) or![N_h; N_glide; N_t; N_voiced])
  (* rules.rs:235 (macro 213-219) *)
    | N_v => (AndNot (One (lit "vV")) or![N_h; N_glide; N_v; N_unvoiced])
  (* rules.rs:236 (macro 213-219) *)
    | N_x => (AndNot (One (lit "xX")) or![N_h; N_glide; N_x; N_c; N_k; N_voiced])
  (* rules.rs:237 (macro 213-219) *)
    | N_z => (AndNot (One (lit "zZ")) or![N_h; N_glide; N_z; N_j; N_unvoiced])
  (* rules.rs:239 (macro 119-125) *)
    | N_liquid => or![N_l; N_r]
  (* rules.rs:240 (macro 119-125) *)
    | N_syllabic => or![N_l; N_m; N_n; N_r]
  (* rules.rs:241 (macro 119-125) *)
    | N_voiced => or![N_b; N_d; N_g; N_j; N_v; N_z]
  (* rules.rs:242 (macro 119-125) *)
    | N_unvoiced => or![N_c; N_f; N_k; N_p; N_s; N_t; N_x]
  (* rules.rs:244 (macro 119-125) *)
    | N_consonant => or![N_voiced; N_unvoiced; N_syllabic]
  (* rules.rs:246-259 *)
    | N_other => or![N_p; N_k; N_f; N_x; N_b; N_g; N_v; N_m; seq![N_n; (Not
      N_liquid)]; seq![or![N_t; N_d]; (Not N_l)]]
  (* rules.rs:261-263 *)
    | N_sibilant => or![N_c; seq![N_s; (Not N_x)]; seq![or![N_j; N_z]; (Not N_n); (Not
      N_liquid)]]
  (* rules.rs:265-267 *)
    | N_affricate => or![seq![N_t; or![N_c; N_s]]; seq![N_d; or![N_j; N_z]]]
  (* rules.rs:277 (macro 269-275) *)
    | N_a => (One (lit "aA"))
  (* rules.rs:278 (macro 269-275) *)
    | N_e => (One (lit "eE"))
  (* rules.rs:279 (macro 269-275) *)
    | N_i => (One (lit "iI"))
  (* rules.rs:280 (macro 269-275) *)
    | N_o => (One (lit "oO"))
  (* rules.rs:281 (macro 269-275) *)
    | N_u => (One (lit "uU"))
  (* rules.rs:282 (macro 269-275) *)
    | N_y => (One (lit "yY"))
  (* rules.rs:285-287 *)
    | N_vowel => (AndNot (One (lit "aAeEiIoOuUyY")) N_nucleus)
  (* rules.rs:295-297 *)
    | N_diphthong => (AndNot or![seq![N_a; or![N_i; N_u]]; seq![or![N_e; N_o]; N_i]]
      N_nucleus)
  (* rules.rs:305-307 *)
    | N_nucleus => or![N_vowel; N_diphthong; (AndNot N_y N_nucleus)]
  (* rules.rs:309-311 *)
    | N_glide => (AndPeek (One (lit "iIuU")) N_nucleus)
  (* rules.rs:313-315 *)
    | N_digit => (AndNot (One (lit "0123456789")) or![N_h; N_nucleus])
  (* rules.rs:318-334 *)
    | N_cmevla => (NotThen N_h seq![(Repeat 0%nat or![N_nucleus; N_glide; N_h; (AndNot
      N_consonant Eof); N_digit]); N_consonant; Eof])
  (* rules.rs:337-342 *)
    | N_cvcy_lujvo => or![seq![N_cvc_rafsi; N_y; (Opt N_h); (Repeat 0%nat
      N_initial_rafsi); N_brivla_core]; seq![N_stressed_cvc_rafsi; N_y;
      N_short_final_rafsi]]
  (* rules.rs:344-346 *)
    | N_cluster => (Repeat 2%nat N_consonant)
  (* rules.rs:348-352 *)
    | N_initial => (AndNot (AndNot or![N_affricate; seq![(Opt N_sibilant); (Opt
      N_other); (Opt N_liquid)]] N_consonant) N_glide)
  (* rules.rs:354-356 *)
    | N_onset => or![N_h; N_glide; N_initial]
  (* rules.rs:358-360 *)
    | N_stressed => seq![N_onset; (One (lit "AEIOU"))]
  (* rules.rs:363-375 *)
    | N_cmavo_form => longest![N_digit; (Repeat 1%nat N_y); seq![(Not N_h); (Not
      N_cluster); N_onset; (Repeat 0%nat seq![N_nucleus; N_h]); or![seq![(Not
      N_stressed); N_nucleus]; seq![N_nucleus; (Not N_cluster)]]]]
  (* rules.rs:382-384 *)
    | N_post_word => or![Eof; seq![(Not N_nucleus); N_lojban_word]]
  (* rules.rs:386-388 *)
    | N_initial_pair => seq![(Peek N_initial); N_consonant; N_consonant; (Not
      N_consonant)]
  (* rules.rs:390-392 *)
    | N_consonantal_syllable => seq![N_consonant; (Peek N_syllabic); N_coda]
  (* rules.rs:394-396 *)
    | N_any_syllable => or![seq![N_onset; N_nucleus; (Opt N_coda)];
      N_consonantal_syllable]
  (* rules.rs:398-403 *)
    | N_coda => or![seq![(Not N_any_syllable); N_consonant; (Peek N_any_syllable)];
      seq![(Opt N_syllabic); (Opt N_consonant); Eof]]
  (* rules.rs:405-407 *)
    | N_syllable => seq![N_onset; (Not N_y); N_nucleus; (Opt N_coda)]
  (* rules.rs:409-411 *)
    | N_stress => seq![(Repeat 0%nat N_consonant); (Opt N_h); (Opt N_y); N_syllable;
      Eof]
  (* rules.rs:413-415 *)
    | N_explicitly_stressed_vowel => seq![(Peek N_stressed); N_vowel]
  (* rules.rs:417-419 *)
    | N_stressed_vowel => or![N_explicitly_stressed_vowel; seq![N_vowel; (Peek
      N_stress)]]
  (* rules.rs:421-430 *)
    | N_final_syllable => seq![N_onset; (Not N_y); (Not N_stressed); N_nucleus; (Not
      N_cmevla); (Peek N_post_word)]
  (* rules.rs:433-444 *)
    | N_gismu => seq![or![seq![N_initial_pair; N_stressed_vowel]; seq![N_consonant;
      N_stressed_vowel; N_consonant]]; (Peek N_final_syllable); N_consonant; N_vowel;
      (Peek N_post_word)]
  (* rules.rs:446-448 *)
    | N_cvc_rafsi => seq![N_consonant; N_unstressed_vowel; N_consonant]
  (* rules.rs:450-452 *)
    | N_ccv_rafsi => seq![N_initial_pair; N_unstressed_vowel]
  (* rules.rs:454-456 *)
    | N_unstressed_vowel => seq![(Not N_stressed); N_vowel; (Not N_stress)]
  (* rules.rs:458-460 *)
    | N_unstressed_diphthong => seq![(Not N_stressed); N_diphthong; (Not N_stress)]
  (* rules.rs:462-464 *)
    | N_r_hyphen => or![seq![N_r; (Peek N_consonant)]; seq![N_n; (Peek N_r)]]
  (* rules.rs:466-475 *)
    | N_cvv_rafsi => seq![N_consonant; or![seq![N_unstressed_vowel; N_h;
      N_unstressed_vowel]; N_unstressed_diphthong]; N_r_hyphen]
  (* rules.rs:477-483 *)
    | N_y_less_rafsi => (NotThen N_y_rafsi (NotThen N_stressed_y_rafsi (NotThen
      N_hy_rafsi (NotThen N_stressed_hy_rafsi (AndNot or![N_cvc_rafsi; N_ccv_rafsi;
      N_cvv_rafsi] N_h)))))
  (* rules.rs:485-494 *)
    | N_cvv_final_rafsi => seq![N_consonant; N_stressed_vowel; N_h; (Peek
      N_final_syllable); N_vowel; (Peek N_post_word)]
  (* rules.rs:496-498 *)
    | N_stressed_cvc_rafsi => seq![N_consonant; N_stressed_vowel; N_consonant]
  (* rules.rs:500-502 *)
    | N_stressed_ccv_rafsi => seq![N_initial_pair; N_stressed_vowel]
  (* rules.rs:504-509 *)
    | N_stressed_diphthong => or![seq![(Peek N_stressed); N_diphthong];
      seq![N_diphthong; (Peek N_stress)]]
  (* rules.rs:511-520 *)
    | N_stressed_cvv_rafsi => seq![N_consonant; or![seq![N_unstressed_vowel; N_h;
      N_stressed_vowel]; N_stressed_diphthong]; (Opt N_r_hyphen)]
  (* rules.rs:522-528 *)
    | N_stressed_y_less_rafsi => or![seq![N_stressed_cvc_rafsi; (Not N_y)];
      N_stressed_ccv_rafsi; N_stressed_cvv_rafsi]
  (* rules.rs:530-535 *)
    | N_long_rafsi => or![seq![N_initial_pair; N_unstressed_vowel; N_consonant];
      seq![N_consonant; N_unstressed_vowel; N_consonant; N_consonant]]
  (* rules.rs:537-544 *)
    | N_hy_rafsi => seq![or![seq![N_long_rafsi; N_vowel]; N_ccv_rafsi; N_cvv_rafsi];
      N_h; N_y; (Opt N_h)]
  (* rules.rs:546-556 *)
    | N_stressed_hy_rafsi => seq![or![seq![N_long_rafsi; N_stressed_vowel];
      N_stressed_ccv_rafsi; N_stressed_cvv_rafsi]; N_h; N_y]
  (* rules.rs:558-560 *)
    | N_y_rafsi => seq![or![N_long_rafsi; N_cvc_rafsi]; N_y; (Opt N_h)]
  (* rules.rs:562-567 *)
    | N_stressed_long_rafsi => or![seq![N_initial_pair; N_stressed_vowel;
      N_consonant]; seq![N_consonant; N_stressed_vowel; N_consonant; N_consonant]]
  (* rules.rs:569-571 *)
    | N_stressed_y_rafsi => seq![or![N_stressed_long_rafsi; N_stressed_cvc_rafsi];
      N_y]
  (* rules.rs:573-579 *)
    | N_short_final_rafsi => seq![(Peek N_final_syllable); or![seq![N_consonant;
      N_diphthong]; seq![N_initial_pair; N_vowel]]; (Peek N_post_word)]
  (* rules.rs:581-595 *)
    | N_rafsi_string => seq![(Repeat 0%nat N_y_less_rafsi); or![N_gismu;
      N_cvv_final_rafsi; seq![N_stressed_y_less_rafsi; N_short_final_rafsi];
      N_y_rafsi; N_stressed_y_rafsi; seq![(Opt N_stressed_y_less_rafsi);
      N_initial_pair; N_y]; N_hy_rafsi; N_stressed_hy_rafsi]]
  (* rules.rs:597-599 *)
    | N_slinkuhi => seq![(Not N_rafsi_string); N_consonant; N_rafsi_string]
  (* rules.rs:601-606 *)
    | N_unstressed_syllable => or![seq![(Not N_stressed); N_syllable; (Not N_stress)];
      N_consonantal_syllable]
  (* rules.rs:608-616 *)
    | N_brivla_head => seq![(Not N_cmavo); (Not N_slinkuhi); (Not N_h); (Peek
      N_onset); (Repeat 0%nat N_unstressed_syllable)]
  (* rules.rs:618-621 *)
    | N_fuhivla_head => (NotThen N_rafsi_string N_brivla_head)
  (* rules.rs:623-625 *)
    | N_explicitly_stressed_syllable => seq![(Peek N_stressed); N_syllable]
  (* rules.rs:627-629 *)
    | N_stressed_syllable => or![N_explicitly_stressed_syllable; seq![N_syllable;
      (Peek N_stress)]]
  (* rules.rs:632-639 *)
    | N_fuhivla => seq![N_fuhivla_head; N_stressed_syllable; (Repeat 0%nat
      N_consonantal_syllable); N_final_syllable]
  (* rules.rs:641-649 *)
    | N_brivla_rafsi => seq![(Peek seq![N_syllable; (Repeat 0%nat
      N_consonantal_syllable); N_syllable]); N_brivla_head; N_h; N_y; (Opt N_h)]
  (* rules.rs:651-660 *)
    | N_fuhivla_rafsi => seq![(Peek N_unstressed_syllable); N_fuhivla_head; (Not N_h);
      N_onset; N_y; (Opt N_h)]
  (* rules.rs:662-664 *)
    | N_extended_rafsi => or![N_brivla_rafsi; N_fuhivla_rafsi]
  (* rules.rs:666-674 *)
    | N_stressed_brivla_rafsi => seq![(Peek N_unstressed_syllable); N_brivla_head;
      N_stressed_syllable; N_h; N_y]
  (* rules.rs:676-678 *)
    | N_stressed_fuhivla_rafsi => seq![N_fuhivla_head; N_stressed_syllable; (Not N_h);
      N_onset; N_y]
  (* rules.rs:680-682 *)
    | N_stressed_extended_rafsi => or![N_stressed_brivla_rafsi;
      N_stressed_fuhivla_rafsi]
  (* rules.rs:684-686 *)
    | N_any_extended_rafsi => or![N_fuhivla; N_extended_rafsi;
      N_stressed_extended_rafsi]
  (* rules.rs:688-698 *)
    | N_initial_rafsi => or![N_extended_rafsi; N_y_rafsi; seq![(Not
      N_any_extended_rafsi); N_y_less_rafsi; (Not N_any_extended_rafsi)]]
  (* rules.rs:700-706 *)
    | N_stressed_initial_rafsi => or![N_stressed_extended_rafsi; N_stressed_y_rafsi;
      N_stressed_y_less_rafsi]
  (* rules.rs:708-715 *)
    | N_brivla_core => or![N_fuhivla; N_gismu; N_cvv_final_rafsi;
      seq![N_stressed_initial_rafsi; N_short_final_rafsi]]
  (* rules.rs:718-728 *)
    | N_explicitly_stressed_gismu_minimal => seq![or![seq![N_initial_pair;
      N_explicitly_stressed_vowel]; seq![N_consonant; N_explicitly_stressed_vowel;
      N_consonant]]; (Peek N_final_syllable); N_consonant; N_vowel]
  (* rules.rs:730-732 *)
    | N_final_syllable_minimal => seq![N_onset; (Not N_y); (Not N_stressed);
      N_nucleus]
  (* rules.rs:735-742 *)
    | N_explicitly_stressed_fuhivla_minimal => seq![N_fuhivla_head;
      N_explicitly_stressed_syllable; (Repeat 0%nat N_consonantal_syllable);
      N_final_syllable_minimal]
  (* rules.rs:744-753 *)
    | N_explicitly_stressed_cvv_final_rafsi => seq![N_consonant;
      N_explicitly_stressed_vowel; N_h; (Peek N_final_syllable); N_vowel; (Peek
      N_post_word)]
  (* rules.rs:755-763 *)
    | N_explicitly_stressed_brivla_rafsi => seq![(Peek N_unstressed_syllable);
      N_brivla_head; N_explicitly_stressed_syllable; N_h; N_y]
  (* rules.rs:765-767 *)
    | N_explicitly_stressed_fuhivla_rafsi => seq![N_fuhivla_head;
      N_explicitly_stressed_syllable; (Not N_h); N_onset; N_y]
  (* rules.rs:769-774 *)
    | N_explicitly_stressed_extended_rafsi => or![N_explicitly_stressed_brivla_rafsi;
      N_explicitly_stressed_fuhivla_rafsi]
  (* rules.rs:776-781 *)
    | N_explicitly_stressed_long_rafsi => or![seq![N_initial_pair;
      N_explicitly_stressed_vowel; N_consonant]; seq![N_consonant;
      N_explicitly_stressed_vowel; N_consonant; N_consonant]]
  (* rules.rs:783-785 *)
    | N_explicitly_stressed_cvc_rafsi => seq![N_consonant;
      N_explicitly_stressed_vowel; N_consonant]
  (* rules.rs:787-795 *)
    | N_explicitly_stressed_y_rafsi => seq![or![N_explicitly_stressed_long_rafsi;
      N_explicitly_stressed_cvc_rafsi]; N_y]
  (* rules.rs:797-799 *)
    | N_explicitly_stressed_ccv_rafsi => seq![N_initial_pair;
      N_explicitly_stressed_vowel]
  (* rules.rs:801-803 *)
    | N_explicitly_stressed_diphthong => seq![(Peek N_stressed); N_diphthong]
  (* rules.rs:805-814 *)
    | N_explicitly_stressed_cvv_rafsi => seq![N_consonant;
      or![seq![N_unstressed_vowel; N_h; N_explicitly_stressed_vowel];
      N_explicitly_stressed_diphthong]; (Opt N_r_hyphen)]
  (* rules.rs:816-822 *)
    | N_explicitly_stressed_y_less_rafsi => or![seq![N_explicitly_stressed_cvc_rafsi;
      (Not N_y)]; N_explicitly_stressed_ccv_rafsi; N_explicitly_stressed_cvv_rafsi]
  (* rules.rs:824-830 *)
    | N_explicitly_stressed_initial_rafsi => or![N_explicitly_stressed_extended_rafsi;
      N_explicitly_stressed_y_rafsi; N_explicitly_stressed_y_less_rafsi]
  (* rules.rs:832-839 *)
    | N_explicitly_stressed_brivla_core => or![N_explicitly_stressed_fuhivla_minimal;
      N_explicitly_stressed_gismu_minimal; N_explicitly_stressed_cvv_final_rafsi;
      seq![N_explicitly_stressed_initial_rafsi; N_short_final_rafsi]]
  (* rules.rs:841-843 *)
    | N_explicitly_stressed_brivla_minimal => seq![(Repeat 0%nat N_initial_rafsi);
      N_explicitly_stressed_brivla_core]
  (* rules.rs:846-854 *)
    | N_lujvo => seq![(Not N_gismu); (Not N_fuhivla); (Not N_cmavo); (Repeat 0%nat
      N_initial_rafsi); N_brivla_core]
  (* rules.rs:858-860 *)
    | N_lujvo_minimal => seq![(Repeat 0%nat N_initial_rafsi); N_brivla_core]
  (* rules.rs:863-865 *)
    | N_brivla => or![N_gismu; N_fuhivla; seq![(Not N_cmavo); N_lujvo_minimal]]
  (* rules.rs:869-871 *)
    | N_brivla_minimal => or![N_gismu; N_fuhivla; N_lujvo_minimal]
  (* rules.rs:874-880 *)
    | N_lojban_word => or![N_cmevla; N_cmavo_semi_minimal; N_brivla_minimal]
  (* rules.rs:883-886 *)
    | N_cmavo => (NotThen N_cmevla N_cmavo_semi_minimal)
  (* rules.rs:890-893 *)
    | N_cmavo_minimal => (NotThen N_cvcy_lujvo N_cmavo_form)
  (* rules.rs:896-898 *)
    | N_cmavo_semi_minimal => (AndPeek N_cmavo_minimal N_post_word)
  end.

(** All rules (used by checkers that sweep the grammar). *)
Definition all_nt : list nt :=
[N_h; N_b; N_c; N_d; N_f; N_g; N_j; N_k; N_l; N_m; N_n; N_p; N_r; N_s; N_t;
N_v; N_x; N_z; N_liquid; N_syllabic; N_voiced; N_unvoiced; N_consonant;
N_other; N_sibilant; N_affricate; N_a; N_e; N_i; N_o; N_u; N_y; N_vowel;
N_diphthong; N_nucleus; N_glide; N_digit; N_cmevla; N_cvcy_lujvo; N_cluster;
N_initial; N_onset; N_stressed; N_cmavo_form; N_post_word; N_initial_pair;
N_consonantal_syllable; N_any_syllable; N_coda; N_syllable; N_stress;
N_explicitly_stressed_vowel; N_stressed_vowel; N_final_syllable; N_gismu;
N_cvc_rafsi; N_ccv_rafsi; N_unstressed_vowel; N_unstressed_diphthong;
N_r_hyphen; N_cvv_rafsi; N_y_less_rafsi; N_cvv_final_rafsi;
N_stressed_cvc_rafsi; N_stressed_ccv_rafsi; N_stressed_diphthong;
N_stressed_cvv_rafsi; N_stressed_y_less_rafsi; N_long_rafsi; N_hy_rafsi;
N_stressed_hy_rafsi; N_y_rafsi; N_stressed_long_rafsi; N_stressed_y_rafsi;
N_short_final_rafsi; N_rafsi_string; N_slinkuhi; N_unstressed_syllable;
N_brivla_head; N_fuhivla_head; N_explicitly_stressed_syllable;
N_stressed_syllable; N_fuhivla; N_brivla_rafsi; N_fuhivla_rafsi;
N_extended_rafsi; N_stressed_brivla_rafsi; N_stressed_fuhivla_rafsi;
N_stressed_extended_rafsi; N_any_extended_rafsi; N_initial_rafsi;
N_stressed_initial_rafsi; N_brivla_core; N_explicitly_stressed_gismu_minimal;
N_final_syllable_minimal; N_explicitly_stressed_fuhivla_minimal;
N_explicitly_stressed_cvv_final_rafsi; N_explicitly_stressed_brivla_rafsi;
N_explicitly_stressed_fuhivla_rafsi; N_explicitly_stressed_extended_rafsi;
N_explicitly_stressed_long_rafsi; N_explicitly_stressed_cvc_rafsi;
N_explicitly_stressed_y_rafsi; N_explicitly_stressed_ccv_rafsi;
N_explicitly_stressed_diphthong; N_explicitly_stressed_cvv_rafsi;
N_explicitly_stressed_y_less_rafsi; N_explicitly_stressed_initial_rafsi;
N_explicitly_stressed_brivla_core; N_explicitly_stressed_brivla_minimal;
N_lujvo; N_lujvo_minimal; N_brivla; N_brivla_minimal; N_lojban_word; N_cmavo;
N_cmavo_minimal; N_cmavo_semi_minimal].
