(** SpecGen.v -- context-free grammars over selma'o; specification only. *)
From Verif Require Import Base Selmaho Lex SpecCst.

(** A symbol of a production: a word of the given selma'o, or a construct. *)
Inductive sym (nt : Type) := Word (s : Selmaho) | Part (a : nt).
Arguments Word {nt} s.
Arguments Part {nt} a.

(** [gens prods w m]: the tokens [m] can be generated from the symbols [w] with the productions [prods]. *)
Inductive gens {nt : Type} (prods : nt -> list (list (sym nt))) : list (sym nt) -> list token -> Prop :=
| gens_nil : gens prods [] []
| gens_word s t w m : selmaho t = s -> gens prods w m -> gens prods (Word s :: w) (t :: m)
| gens_nt a p w m1 m2 : In p (prods a) -> gens prods p m1 -> gens prods w m2 -> gens prods (Part a :: w) (m1 ++ m2).

(** [phrase prods w a pre m post]: in a derivation of the tokens [pre ++ m ++ post] from the symbols [w], the tokens
    [m] are generated from the construct [a]. *)
Inductive phrase {nt : Type} (prods : nt -> list (list (sym nt))) : list (sym nt) -> nt -> list token -> list token -> list token -> Prop :=
| phrase_here a p w m m' : In p (prods a) -> gens prods p m -> gens prods w m' -> phrase prods (Part a :: w) a [] m m'
| phrase_in a b p w pre m post m' : In p (prods a) -> phrase prods p b pre m post -> gens prods w m' -> phrase prods (Part a :: w) b pre m (post ++ m')
| phrase_word s t b w pre m post : selmaho t = s -> phrase prods w b pre m post -> phrase prods (Word s :: w) b (t :: pre) m post
| phrase_after a b p w m' pre m post : In p (prods a) -> gens prods p m' -> phrase prods w b pre m post -> phrase prods (Part a :: w) b (m' ++ pre) m post.
