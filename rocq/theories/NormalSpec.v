(** What normal distributions promise. *)
From Coq Require Import ZArith List Bool.
From Verif Require Import Base Datum CodecModel FloatModel FloatSpec IntervalModel IntervalSpec DistModel DistSpec DistCodecModel DistCodecSpec.
Import ListNotations.
Open Scope Z_scope.

Definition HALF_ := 0x3fe0000000000000.
(** 2^63 and -2^63 as doubles *)
Definition TOP := 0x43e0000000000000.
Definition BOTTOM := 0xc3e0000000000000.
(** [k] is the integer nearest to the double [x], half way cases being rounded away from 0 *)
Definition nearest_int (x k : Z) : Prop :=
  finite x /\ 2 * Z.abs (scaled x - k * 2 ^ 1074) <= 2 ^ 1074 /\
  (2 * Z.abs (scaled x - k * 2 ^ 1074) = 2 ^ 1074 -> Z.abs (scaled x) < Z.abs (k * 2 ^ 1074)).
(** the double [r] is the integer nearest to the double [x], of the same sign; infinities stay *)
Definition whole (x r : Z) : Prop :=
  (0 <= r < 2 ^ 64) /\
  ((finite x /\ finite r /\ f_sign r = f_sign x /\ exists k, nearest_int x k /\ scaled r = k * 2 ^ 1074) \/
   (~ finite x /\ fkey r = fkey x)).

Section Draws.
  Context {G : Type}.
  Variable gauss : G -> Z -> Z * G.
  Variable tail : G -> Z -> Z -> Z * G.
  Variables flog fexp : Z -> Z.
  (** drawing until a number is not refused *)
  Inductive picked (draw : G -> Z -> G -> Prop) (refused : Z -> Prop) : G -> Z -> G -> Prop :=
  | picked_now g x g' : draw g x g' -> ~ refused x -> picked draw refused g x g'
  | picked_later g y g1 x g' : draw g y g1 -> refused y -> picked draw refused g1 x g' -> picked draw refused g x g'.
  Inductive picked_all (draw : G -> Z -> G -> Prop) : nat -> G -> list Z -> G -> Prop :=
  | pa_nil g : picked_all draw O g [] g
  | pa_cons n g x g1 l g' : draw g x g1 -> picked_all draw n g1 l g' -> picked_all draw (S n) g (x :: l) g'.
  Definition centred (mu sigma : Z) (g : G) (x : Z) (g' : G) : Prop := exists y, gauss g sigma = (y, g') /\ x = fadd y mu.
  (** draws of at least [least]: drawn again, or drawn from the tail when more than half of the
      draws would be refused *)
  Definition centred_above (least mu sigma : Z) (g : G) (x : Z) (g' : G) : Prop :=
    (kle (fkey 0) (fkey (fsub mu least)) /\ picked (centred mu sigma) (fun x => klt (fkey x) (fkey least)) g x g') \/
    (~ kle (fkey 0) (fkey (fsub mu least)) /\ exists y, tail g (fsub least mu) sigma = (y, g') /\ x = fadd y mu).
  (** what is drawn for a distribution of doubles, and the value it gives *)
  Definition float_drawn (d : normal) (g : G) (x : Z) (g' : G) : Prop :=
    if n_scale d =? SCALE_LOGARITHMIC then
      exists y, x = fexp y /\ (if n_quantize d then centred_above (flog (fmul (n_quant d) HALF_)) (n_mu d) (n_sigma d) g y g' else centred (n_mu d) (n_sigma d) g y g')
    else centred (n_mu d) (n_sigma d) g x g'.
  Definition float_value (d : normal) (x v : Z) : Prop :=
    if n_quantize d then exists r, whole (fmul x (fdiv ONE (n_quant d))) r /\ v = fmul r (n_quant d) else v = x.
  (** the same for a distribution of integers; numbers half a step out of the integers are
      drawn again *)
  Definition step_half (d : normal) : Z := if n_quantize d then fmul (f_of_int (n_quant d)) HALF_ else HALF_.
  Definition int_drawn (d : normal) : G -> Z -> G -> Prop :=
    if n_scale d =? SCALE_LOGARITHMIC then
      picked (fun g x g' => exists y, x = fexp y /\ centred_above (flog (step_half d)) (n_mu d) (n_sigma d) g y g')
        (fun x => klt (fkey TOP) (fkey (fsub x (step_half d))))
    else
      picked (centred (n_mu d) (n_sigma d))
        (fun x => klt (fkey TOP) (fkey (fsub x (step_half d))) \/ klt (fkey (fadd x (step_half d))) (fkey BOTTOM)).
End Draws.
(** in units of the step *)
Definition int_steps (d : normal) (x : Z) : Z := if n_quantize d then fmul x (fdiv ONE (f_of_int (n_quant d))) else x.
Definition int_gives (d : normal) (x v : Z) : Prop :=
  exists k, nearest_int (int_steps d x) k /\ in_signed 64 k /\ v = k * (if n_quantize d then n_quant d else 1) /\ in_signed 64 v.
(** the library functions give doubles *)
Definition doubles {G} (gauss : G -> Z -> Z * G) (tail : G -> Z -> Z -> Z * G) (flog fexp : Z -> Z) : Prop :=
  (forall g s, 0 <= fst (gauss g s) < 2 ^ 64) /\ (forall g a s, 0 <= fst (tail g a s) < 2 ^ 64) /\
  (forall x, 0 <= flog x < 2 ^ 64) /\ (forall x, 0 <= fexp x < 2 ^ 64).
