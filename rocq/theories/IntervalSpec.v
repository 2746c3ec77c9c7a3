(** What an interval means: a set of numbers. *)
From Coq Require Import ZArith Bool.
From Verif Require Import Base Datum CodecModel FloatModel FloatSpec.
Open Scope Z_scope.

Definition is_num_type (t : Z) : Prop := t = 1 \/ t = 2.

(** Position of a machine number of type [t] (1 = integer, 2 = float) on a line;
    NaN is nowhere. *)
Definition pos (t v : Z) : option Z := if t =? 2 then fkey v else Some v.

Definition above (i : interval) (x : Z) : Prop :=
  match pos (i_type i) (i_lower i) with
  | Some l => if i_linc i then l <= x else l < x
  | None => False
  end.
Definition below (i : interval) (x : Z) : Prop :=
  match pos (i_type i) (i_upper i) with
  | Some u => if i_uinc i then x <= u else x < u
  | None => False
  end.
Definition member (i : interval) (v : Z) : Prop :=
  match pos (i_type i) v with
  | Some x => above i x /\ below i x
  | None => False
  end.
(** bounds are numbers *)
Definition proper (i : interval) : Prop :=
  is_num_type (i_type i) /\ pos (i_type i) (i_lower i) <> None /\ pos (i_type i) (i_upper i) <> None.

(** Points of the line between representable numbers: [h] is twice a position. *)
Definition covers_point (i : interval) (h : Z) : Prop :=
  match pos (i_type i) (i_lower i), pos (i_type i) (i_upper i) with
  | Some l, Some u => (if i_linc i then 2 * l <= h else 2 * l < h) /\
                      (if i_uinc i then h <= 2 * u else h < 2 * u)
  | _, _ => False
  end.

(** bounds of a tie with different inclusions are lost *)
Definition lost (a b : interval) (x : Z) : Prop :=
  (pos (i_type a) (i_lower a) = Some x /\ pos (i_type b) (i_lower b) = Some x /\ i_linc a <> i_linc b) \/
  (pos (i_type a) (i_upper a) = Some x /\ pos (i_type b) (i_upper b) = Some x /\ i_uinc a <> i_uinc b).
