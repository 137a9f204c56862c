(** src/namefct.cpp: the TeX text of a name. *)
From Verif Require Export PrinterModel.
From Coq Require Import String Ascii List.
Import ListNotations.

(** getGreekTexLetter, src/namefct.cpp:69-77; tex, src/namefct.cpp:107-115. *)
Definition greekTex (s : text) : text :=
  txt "\" ++ (if sameText s (txt "phi") || sameText s (txt "Phi") then txt "var" else []) ++ s.
Definition tex (n : name) : text :=
  (match greek (txt (nvalue n)) with Some _ => greekTex (txt (nvalue n)) | None => txt (nvalue n) end)
  ++ delim "_" (nsub n) ++ delim "^" (nsuper n).
