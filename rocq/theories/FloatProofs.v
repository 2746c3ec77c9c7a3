(** Order of doubles through an integer key. *)
From Coq Require Import ZArith Bool Lia ZifyBool Floats.SpecFloat.
From Verif Require Import Base FloatModel FloatSpec.
Open Scope Z_scope.

Lemma f_mag_range b : 0 <= f_mag b < 2 ^ 63.
Proof. apply Z.mod_pos_bound; lia. Qed.
Lemma f_parts b : f_mag b = f_exp b * 2 ^ 52 + f_man b /\ 0 <= f_man b < 2 ^ 52 /\ 0 <= f_exp b < 2048.
Proof.
  unfold f_exp, f_man. pose proof (f_mag_range b) as R.
  pose proof (Z.div_mod (f_mag b) (2 ^ 52) ltac:(lia)).
  pose proof (Z.mod_pos_bound (f_mag b) (2 ^ 52) ltac:(lia)).
  pose proof (Z.div_pos (f_mag b) (2 ^ 52) ltac:(lia) ltac:(lia)).
  pose proof (Z.div_lt_upper_bound (f_mag b) (2 ^ 52) 2048 ltac:(lia) ltac:(lia)). lia.
Qed.

Inductive decoded (b : Z) : spec_float -> Prop :=
| dec_nan : 2047 * 2 ^ 52 < f_mag b -> decoded b S754_nan
| dec_inf : f_mag b = 2047 * 2 ^ 52 -> decoded b (S754_infinity (f_sign b))
| dec_zero : f_mag b = 0 -> decoded b (S754_zero (f_sign b))
| dec_sub m : f_mag b = Zpos m -> Zpos m < 2 ^ 52 -> decoded b (S754_finite (f_sign b) m (-1074))
| dec_norm m e : 1 <= e < 2047 -> f_mag b = (e - 1) * 2 ^ 52 + Zpos m -> 2 ^ 52 <= Zpos m < 2 ^ 53 ->
    decoded b (S754_finite (f_sign b) m (e - 1075)).

Lemma decode_decoded b : decoded b (decode b).
Proof.
  unfold decode. destruct (f_parts b) as (P & Q & R).
  destruct (f_exp b =? 2047) eqn:E1.
  - destruct (f_man b =? 0) eqn:E2; constructor; lia.
  - destruct (f_exp b =? 0) eqn:E2.
    + destruct (f_man b) eqn:E3; [constructor; lia | constructor; lia | lia].
    + destruct (f_man b + 2 ^ 52) eqn:E3; try lia. apply dec_norm; lia.
Qed.

Lemma Pos_compare_Z m n : Pos.compare_cont Eq m n = (Zpos m ?= Zpos n).
Proof. reflexivity. Qed.

Ltac cmpsolve := symmetry; first [apply Z.compare_lt_iff; lia | apply Z.compare_gt_iff; lia | apply Z.compare_eq_iff; lia].

(** Ordinary (non-NaN) comparisons are comparisons of keys. *)
Lemma fcompare_key a b :
  SFcompare (decode a) (decode b) =
  match fkey a, fkey b with
  | Some x, Some y => Some (x ?= y)
  | _, _ => None
  end.
Proof.
  unfold fkey.
  destruct (decode_decoded a) as [H|H|H|m H H0|m e H H0 H1];
    destruct (decode_decoded b) as [G|G|G|m' G G0|m' e' G G0 G1];
    repeat match goal with |- context [2047 * 2 ^ 52 <? ?x] => destruct (Z.ltb_spec (2047 * 2 ^ 52) x); try lia end;
    cbn [SFcompare]; try reflexivity;
    destruct (f_sign a), (f_sign b); f_equal; try cmpsolve;
    try (rewrite Pos_compare_Z);
    repeat match goal with |- context [(?x - 1075) ?= ?y] => destruct (Z.compare_spec (x - 1075) y)
      | |- context [-1074 ?= ?y] => destruct (Z.compare_spec (-1074) y) end; try cmpsolve; try lia;
    repeat match goal with |- context [Zpos ?x ?= Zpos ?y] => destruct (Z.compare_spec (Zpos x) (Zpos y)) end;
    cbn [CompOpp]; try cmpsolve; try lia.
Qed.

Lemma flt_key a b : flt a b = true <-> klt (fkey a) (fkey b).
Proof.
  unfold flt, SFltb. rewrite fcompare_key.
  destruct (fkey a), (fkey b); cbn; try (split; [discriminate | tauto]).
  destruct (Z.compare_spec z z0); split; auto; try discriminate; lia.
Qed.
Lemma fle_key a b : fle a b = true <-> kle (fkey a) (fkey b).
Proof.
  unfold fle, SFleb. rewrite fcompare_key.
  destruct (fkey a), (fkey b); cbn; try (split; [discriminate | tauto]).
  destruct (Z.compare_spec z z0); split; auto; try discriminate; lia.
Qed.
Lemma feq_key a b : feq a b = true <-> keq (fkey a) (fkey b).
Proof.
  unfold feq, SFeqb. rewrite fcompare_key.
  destruct (fkey a), (fkey b); cbn; try (split; [discriminate | tauto]).
  destruct (Z.compare_spec z z0); split; auto; try discriminate; lia.
Qed.
Lemma is_nan_key a : is_nan a = true <-> fkey a = None.
Proof.
  unfold is_nan, fkey.
  destruct (decode_decoded a); destruct (Z.ltb_spec (2047 * 2 ^ 52) (f_mag a)); try lia; split; auto; discriminate.
Qed.
