(** Shared vocabulary of the model: outcomes of C functions and the result
    codes of the library. *)
From Coq Require Import ZArith List Bool Lia.
Import ListNotations.
Open Scope Z_scope.

(** Kinds of undefined behaviour (or model-only failures) that the C code may
    run into.  They are a separate outcome: no theorem about a returned value
    or an error code can be satisfied by one of them. *)
Inductive ub : Type :=
| UBShift        (* shift by at least the width, or overflowing signed shift *)
| UBOverflow     (* signed integer overflow, INT_MIN / -1 *)
| UBBounds       (* access outside an object, or use of a freed one *)
| UBString       (* unterminated or NULL pointer used as a C string *)
| UBUninit       (* use of an uninitialised value *)
| UBConvert      (* float to integer conversion out of range *)
| UBDivZero      (* integer division by zero *)
| UBDiverge      (* the C code does not terminate *)
| UBFuel.        (* model artefact: fuel exhausted, shown unreachable *)

Inductive res (A : Type) : Type :=
| Ok  (a : A)
| Err (code : Z)
| UB  (why : ub).
Arguments Ok {A} a.
Arguments Err {A} code.
Arguments UB {A} why.

(** CCS_VALIDATE / CCS_REFUTE chaining: src/cconfigspace_internal.h 62-147.
    An error code is propagated to the caller unchanged (the macros also push a
    frame on the thread's error stack, modelled in ErrorStackModel.v). *)
Definition bind {A B : Type} (x : res A) (f : A -> res B) : res B :=
  match x with
  | Ok a => f a
  | Err e => Err e
  | UB w => UB w
  end.

Declare Scope res_scope.
Delimit Scope res_scope with res.
Notation "'do' x <- e ; f" := (bind e (fun x => f))
  (at level 200, x pattern, e at level 100, f at level 200) : res_scope.
Open Scope res_scope.

(** Result codes: include/cconfigspace/base.h, enum ccs_result_e. *)
Definition CCS_RESULT_SUCCESS := 0.
Definition CCS_RESULT_AGAIN := 1.
Definition ERR_INVALID_OBJECT := -1.
Definition ERR_INVALID_VALUE := -2.
Definition ERR_INVALID_TYPE := -3.
Definition ERR_INVALID_SCALE := -4.
Definition ERR_INVALID_DISTRIBUTION := -5.
Definition ERR_INVALID_EXPRESSION := -6.
Definition ERR_INVALID_PARAMETER := -7.
Definition ERR_INVALID_CONFIGURATION := -8.
Definition ERR_INVALID_NAME := -9.
Definition ERR_INVALID_CONDITION := -10.
Definition ERR_INVALID_TUNER := -11.
Definition ERR_INVALID_GRAPH := -12.
Definition ERR_TYPE_NOT_COMPARABLE := -13.
Definition ERR_INVALID_BOUNDS := -14.
Definition ERR_OUT_OF_BOUNDS := -15.
Definition ERR_SAMPLING_UNSUCCESSFUL := -16.
Definition ERR_OUT_OF_MEMORY := -17.
Definition ERR_UNSUPPORTED_OPERATION := -18.
Definition ERR_INVALID_EVALUATION := -19.
Definition ERR_INVALID_FEATURES := -20.
Definition ERR_INVALID_FEATURES_TUNER := -21.
Definition ERR_INVALID_FILE_PATH := -22.
Definition ERR_NOT_ENOUGH_DATA := -23.
Definition ERR_DUPLICATE_HANDLE := -24.
Definition ERR_INVALID_HANDLE := -25.
Definition ERR_SYSTEM := -26.
Definition ERR_EXTERNAL := -27.
Definition ERR_INVALID_TREE := -28.
Definition ERR_INVALID_TREE_SPACE := -29.
Definition ERR_INVALID_TREE_TUNER := -30.

(** Machine integers are [Z]; [wrap w] is conversion to an unsigned type of [w]
    bits, [to_signed w] conversion of a [w]-bit pattern to the signed type. *)
Definition wrap (w x : Z) : Z := x mod 2 ^ w.
Definition to_signed (w x : Z) : Z :=
  let u := wrap w x in if u <? 2 ^ (w - 1) then u else u - 2 ^ w.

Definition in_unsigned (w x : Z) : Prop := 0 <= x < 2 ^ w.
Definition in_signed (w x : Z) : Prop := - 2 ^ (w - 1) <= x < 2 ^ (w - 1).

Definition INT64_MIN := - 2 ^ 63.
Definition INT64_MAX := 2 ^ 63 - 1.

Definition lenZ {A : Type} (l : list A) : Z := Z.of_nat (length l).

(** CCS_REFUTE(cond, code): src/cconfigspace_internal.h 62-147. *)
Definition refute (c : bool) (e : Z) : res unit := if c then Err e else Ok tt.
