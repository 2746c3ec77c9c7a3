(** Properties C09 and C10: comparison and hashing of values. *)
From Coq Require Import ZArith List Bool.
From Verif Require Import Base Datum CodecModel FloatModel FloatSpec CmpModel CmpSpec CmpProofs.
Import ListNotations.
Open Scope Z_scope.

(** The comparison used for lookups presents the order described by [value_key]. *)
Theorem C09_datum_order : forall a b, wf_datum a -> wf_datum b ->
  presents datum_cmp_internal (fun x y => lex (value_key (d_val x)) (value_key (d_val y))) a b.
Proof. exact datum_cmp_presents. Qed.
Print Assumptions C09_datum_order.
Theorem C09_datum_total_order :
  total_order wf_datum datum_cmp_internal (fun a b => d_val a = d_val b).
Proof. exact datum_cmp_total. Qed.
Print Assumptions C09_datum_total_order.
Example C09_ex : datum_cmp_internal (ccs_string (Some [97])) (ccs_string (Some [97; 98])) < 0 /\
  datum_cmp_internal (ccs_int (-1)) (ccs_int 1) > 0 /\
  datum_cmp_internal (mkDatum (VString (Some [97])) FLAG_TRANSIENT) (ccs_string (Some [97])) = 0.
Proof. now vm_compute. Qed.

(** Equal values hash alike whatever the byte hash [jen] and the flags. *)
Theorem C09_hash_agrees : forall jen a b, wf_datum a -> wf_datum b ->
  datum_cmp_internal a b = 0 -> hash_datum jen a = hash_datum jen b.
Proof. exact hash_agrees. Qed.
Print Assumptions C09_hash_agrees.

Theorem C09_binding_order : forall a b, wf_binding a -> wf_binding b ->
  presents binding_cmp binding_lt a b /\ (binding_cmp a b = 0 <-> same_binding a b).
Proof. exact binding_cmp_presents. Qed.
Print Assumptions C09_binding_order.
Theorem C09_binding_total_order : total_order wf_binding binding_cmp same_binding.
Proof. exact binding_cmp_total. Qed.
Print Assumptions C09_binding_total_order.
Theorem C09_binding_hash_agrees : forall jen a b, wf_binding a -> wf_binding b ->
  binding_cmp a b = 0 -> binding_hash jen a = binding_hash jen b.
Proof. exact binding_hash_agrees. Qed.
Print Assumptions C09_binding_hash_agrees.
Example C09_binding_ex :
  binding_cmp (mkBinding 8 [ccs_int 1; ccs_inactive]) (mkBinding 8 [ccs_int 1; ccs_true]) > 0 /\
  binding_cmp (mkBinding 8 [ccs_int 1; mkDatum (VInt 3) FLAG_TRANSIENT]) (mkBinding 8 [ccs_int 1; ccs_int 3]) = 0.
Proof. now vm_compute. Qed.

(** Away from NaN the public comparison presents the numeric order; two datums
    compare equal exactly when they hold the same value, zeros of both signs
    being the same number. *)
Theorem C10_public_order : forall a b, no_nan a -> no_nan b ->
  presents ccs_datum_cmp (fun x y => num_lt (d_val x) (d_val y)) a b /\
  (ccs_datum_cmp a b = 0 <-> num_same (d_val a) (d_val b)).
Proof. exact public_cmp_presents. Qed.
Print Assumptions C10_public_order.
Theorem C10_public_total_order :
  total_order no_nan ccs_datum_cmp (fun a b => num_same (d_val a) (d_val b)).
Proof. exact public_cmp_total. Qed.
Print Assumptions C10_public_total_order.
Example C10_ex : ccs_datum_cmp (ccs_int (-1)) (ccs_int 1) < 0 /\
  ccs_datum_cmp (ccs_float 0xbff0000000000000) (ccs_float 0x3ff0000000000000) < 0 /\
  ccs_datum_cmp (ccs_int 5) (ccs_float 0) < 0.
Proof. now vm_compute. Qed.

(** A NaN compares equal to every float. *)
Theorem C10_nan_equals_everything : forall x y, fkey x = None ->
  ccs_datum_cmp (ccs_float x) (ccs_float y) = 0 /\ ccs_datum_cmp (ccs_float y) (ccs_float x) = 0.
Proof. exact public_cmp_nan. Qed.
Print Assumptions C10_nan_equals_everything.
(** Hence on all datums it is no order, and equal datums need not be interchangeable. *)
Theorem C10_strict_order_refuted :
  (exists a b c, ccs_datum_cmp a b = 0 /\ ccs_datum_cmp b c = 0 /\ ccs_datum_cmp a c < 0 /\
     wf_datum a /\ wf_datum b /\ wf_datum c) /\
  (exists a b, ccs_datum_cmp a b = 0 /\ d_val a <> d_val b /\ no_nan a /\ no_nan b).
Proof. exact public_cmp_refuted. Qed.
Print Assumptions C10_strict_order_refuted.
