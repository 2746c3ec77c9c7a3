(** Properties C11, C12, C13: intervals. *)
From Coq Require Import ZArith Bool Lia.
From Verif Require Import Base Datum CodecModel FloatModel FloatSpec IntervalModel IntervalSpec IntervalProofs.
Open Scope Z_scope.

Theorem C11_membership_exact : forall i v, interval_include i v = true <-> member i v.
Proof. exact include_member. Qed.
Print Assumptions C11_membership_exact.
Theorem C11_intersection_exact : forall a b, proper a -> proper b -> i_type a = i_type b ->
  exists r, interval_intersect a b = Ok r /\ i_type r = i_type a /\ proper r /\
    forall v, member r v <-> member a v /\ member b v.
Proof. exact intersect_exact. Qed.
Print Assumptions C11_intersection_exact.
Example C11_ex :
  interval_intersect (mkInterval NUM_INT 0 10 true true) (mkInterval NUM_INT 0 20 false true)
    = Ok (mkInterval NUM_INT 0 10 false true) /\
  interval_include (mkInterval NUM_FLOAT 0 0x3ff0000000000000 true false) 0x3fe0000000000000 = true /\
  interval_include (mkInterval NUM_FLOAT 0 0x3ff0000000000000 true false) 0x3ff0000000000000 = false /\
  proper (mkInterval NUM_FLOAT 0 0x3ff0000000000000 true false).
Proof.
  repeat split; try (right; reflexivity); discriminate.
Qed.
(** Reported empty exactly when not even a point between representable numbers is covered. *)
Theorem C11_emptiness_sound : forall i, proper i ->
  (interval_empty i = true <-> forall h, ~ covers_point i h) /\
  (interval_empty i = true -> forall v, ~ member i v).
Proof. exact emptiness_sound. Qed.
Print Assumptions C11_emptiness_sound.
Theorem C11_mixed_types_rejected : forall a b, i_type a <> i_type b ->
  interval_intersect a b = Err ERR_INVALID_TYPE /\ interval_union a b = Err ERR_INVALID_TYPE /\
  interval_equal a b = Err ERR_INVALID_TYPE.
Proof. exact mixed_types_rejected. Qed.
Print Assumptions C11_mixed_types_rejected.
Theorem C11_float_equality : forall a b, proper a -> proper b -> i_type a = NUM_FLOAT -> i_type b = NUM_FLOAT ->
  exists e, interval_equal a b = Ok e /\
    (e = true -> forall v, member a v <-> member b v) /\
    (e = false -> (interval_empty a = true /\ interval_empty b = true) \/
                  exists h, ~ (covers_point a h <-> covers_point b h)).
Proof. exact equal_float. Qed.
Print Assumptions C11_float_equality.

(** C12: the union is the hull of its operands, minus shared bounds whose
    inclusion differs. *)
Theorem C12_union_exact : forall a b, proper a -> proper b -> i_type a = i_type b ->
  exists r, interval_union a b = Ok r /\ i_type r = i_type a /\ proper r /\
    forall v, member r v <->
      exists x, pos (i_type a) v = Some x /\ (above a x \/ above b x) /\ (below a x \/ below b x) /\ ~ lost a b x.
Proof. exact union_exact. Qed.
Print Assumptions C12_union_exact.
Theorem C12_union_covers_all_but_lost : forall a b, proper a -> proper b -> i_type a = i_type b ->
  exists r, interval_union a b = Ok r /\
    forall v x, member a v \/ member b v -> pos (i_type a) v = Some x -> (member r v <-> ~ lost a b x).
Proof. exact union_covers. Qed.
Print Assumptions C12_union_covers_all_but_lost.
Example C12_ex : interval_union (mkInterval NUM_INT 0 10 true true) (mkInterval NUM_INT 5 20 false true)
    = Ok (mkInterval NUM_INT 0 20 true true) /\
  forall x, ~ lost (mkInterval NUM_INT 0 10 true true) (mkInterval NUM_INT 5 20 false true) x.
Proof. split; [reflexivity|]. intros x [(P & Q & _)|(P & Q & _)]; cbn in *; congruence. Qed.
Theorem C12_union_covers_refuted : exists a b r v, proper a /\ proper b /\ interval_union a b = Ok r /\
  member a v /\ ~ member r v.
Proof. exact union_refuted. Qed.
Print Assumptions C12_union_covers_refuted.

(** C13: integer intervals *)
Theorem C13_int_emptiness : forall i, i_type i = NUM_INT ->
  ((forall v, ~ member i v) <->
   interval_empty i = true \/ (i_linc i = false /\ i_uinc i = false /\ i_upper i = i_lower i + 1)).
Proof. exact int_empty_exact. Qed.
Print Assumptions C13_int_emptiness.
Theorem C13_int_equality : forall a b, i_type a = NUM_INT -> i_type b = NUM_INT ->
  in_signed 64 (i_lower a) -> in_signed 64 (i_upper a) -> in_signed 64 (i_lower b) -> in_signed 64 (i_upper b) ->
  (exists e, interval_equal a b = Ok e /\
     (e = true -> forall v, member a v <-> member b v) /\
     (e = false -> (forall v, ~ member a v) /\ (forall v, ~ member b v) \/ exists v, ~ (member a v <-> member b v))) \/
  (interval_equal a b = UB UBOverflow /\
     exists i, (i = a \/ i = b) /\ (i_linc i = false /\ i_lower i = INT64_MAX \/ i_uinc i = false /\ i_upper i = INT64_MIN)).
Proof. exact equal_int. Qed.
Print Assumptions C13_int_equality.
Example C13_ex : interval_equal (mkInterval NUM_INT 0 3 false false) (mkInterval NUM_INT 1 2 true true) = Ok true.
Proof. reflexivity. Qed.
Theorem C13_int_emptiness_refuted :
  exists i, i_type i = NUM_INT /\ (forall v, ~ member i v) /\ interval_empty i = false.
Proof. exact int_emptiness_refuted. Qed.
Print Assumptions C13_int_emptiness_refuted.
Theorem C13_int_equality_refuted :
  (exists a b, i_type a = NUM_INT /\ i_type b = NUM_INT /\ (forall v, member a v <-> member b v) /\ interval_equal a b = Ok false) /\
  (exists a b, i_type a = NUM_INT /\ i_type b = NUM_INT /\ interval_equal a b = UB UBOverflow).
Proof. exact int_equality_refuted. Qed.
Print Assumptions C13_int_equality_refuted.
