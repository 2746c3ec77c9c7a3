(** What a framed object looks like: "CCS\0", total size as a 64-bit
    little-endian word, version 1, then the object. *)
From Coq Require Import ZArith List Bool.
From Verif Require Import Base Datum CodecModel CodecSpec.
Import ListNotations.
Open Scope Z_scope.

Definition framed (body : list Z) : list Z :=
  [67; 67; 83; 0] ++ word 8 (13 + lenZ body) ++ [1] ++ body.
