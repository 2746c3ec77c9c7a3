(** Several parameters sampled from one distribution: rejection of whole samples. *)
From Coq Require Import ZArith List Bool.
From Verif Require Import Base Datum CodecModel CmpModel CmpSpec IntervalModel IntervalSpec ParamModel ParamSpec.
Import ListNotations.
Open Scope Z_scope.

(** the [c] samples with the given columns *)
Definition rows_of (c : nat) (cols : list (list Z)) : list (list Z) :=
  map (fun j => map (fun col => nth j col 0) cols) (seq 0 c).
(** a sample whose components are all valid, and its values *)
Definition row_ok (ps : list param) (row : list Z) : Prop := Forall2 raw_ok ps row.
Definition row_values (ps : list param) (row : list Z) : list datum := map (fun x => raw_value (fst x) (snd x)) (combine ps row).
(** drawing [c] samples yields one column of [c] values per dimension *)
Definition columns_drawn (dim : nat) (draw : nat -> nat -> res (list (list Z))) : Prop :=
  forall k c cols, draw k c = Ok cols -> length cols = dim /\ Forall (fun l => length l = c) cols.
(** and they are within the bounds *)
Definition within_bounds (bounds : list interval) (draw : nat -> nat -> res (list (list Z))) : Prop :=
  forall k c cols, draw k c = Ok cols -> Forall2 (fun b l => Forall (member b) l) bounds cols.
(** intervals of machine numbers, none of them NaN *)
Definition interval_ok (i : interval) : Prop :=
  is_num_type (i_type i) /\ (i_type i = NUM_INT -> in_signed 64 (i_lower i) /\ in_signed 64 (i_upper i)) /\
  (i_type i = NUM_FLOAT -> pos NUM_FLOAT (i_lower i) <> None /\ pos NUM_FLOAT (i_upper i) <> None).
