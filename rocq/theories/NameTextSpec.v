(** Names for which texts are unambiguous. *)
From Verif Require Export TexModel.
From Coq Require Import String Ascii List.
Import ListNotations.

(** ASCII characters without the ones that separate the parts of a name in its text. *)
Definition plainChar (c : ascii) : Prop := (nat_of_ascii c < 128)%nat /\ ~ In c (list_ascii_of_string "_^{}\").
Definition plainText (s : string) : Prop := Forall plainChar (list_ascii_of_string s).
Definition plainName (n : name) : Prop := plainText (nvalue n) /\ plainText (nsub n) /\ plainText (nsuper n).
(** The names of the Greek letters, as the library spells them, with a small or capital first letter. *)
Definition greekNames : list string :=
  ["alpha"; "beta"; "gamma"; "delta"; "epsilon"; "zeta"; "eta"; "theta"; "iota"; "kappa"; "lambda"; "my"; "ny"; "xi";
   "omikron"; "pi"; "rho"; "sigma"; "tau"; "ypsilon"; "phi"; "chi"; "psi"; "omega";
   "Alpha"; "Beta"; "Gamma"; "Delta"; "Epsilon"; "Zeta"; "Eta"; "Theta"; "Iota"; "Kappa"; "Lambda"; "My"; "Ny"; "Xi";
   "Omikron"; "Pi"; "Rho"; "Sigma"; "Tau"; "Ypsilon"; "Phi"; "Chi"; "Psi"; "Omega"]%string.
