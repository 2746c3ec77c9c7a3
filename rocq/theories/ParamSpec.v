(** What parameters are: sets of values with a default. *)
From Coq Require Import ZArith List Bool.
From Verif Require Import Base Datum CodecModel CodecSpec FloatModel FloatSpec CmpModel CmpSpec IntervalSpec ParamModel.
Import ListNotations.
Open Scope Z_scope.

(** A machine number of type [t] (1 = integer, 2 = float) as a value *)
Definition number (t x : Z) : value := if t =? 2 then VFloat x else VInt x.
Definition machine (t x : Z) : Prop := if t =? 2 then in_unsigned 64 x else in_signed 64 x.

(** The values of a numerical parameter: lower <= x < upper *)
Definition num_domain (t lower upper : Z) (v : value) : Prop :=
  exists x l k u, v = number t x /\ pos t lower = Some l /\ pos t x = Some k /\ pos t upper = Some u /\
                  l <= k < u.

Definition ok_name (s : list Z) : Prop := Forall is_char s /\ lenZ s + 1 < 2 ^ 64.

(** Values a categorical or ordinal parameter may declare, and a discrete one *)
Definition declarable (t : Z) (v : value) : Prop :=
  match v with
  | VInt _ | VFloat _ => True
  | VNone | VBool _ | VString (Some _) => t <> PDISCRETE
  | _ => False
  end.

Definition cat_kind (t : Z) : Prop := t = PCATEGORICAL \/ t = PORDINAL \/ t = PDISCRETE.
(** Acceptable arguments: a valid index for the default, declarable and distinct values *)
Definition cat_ok (t : Z) (vals : list datum) (idx : Z) : Prop :=
  idx < lenZ vals /\ lenZ vals <= INT64_MAX /\ Forall (fun d => declarable t (d_val d)) vals /\
  NoDup (map d_val vals).
(** The value with default flags *)
Definition clean (d : datum) : datum := mkDatum (d_val d) FLAG_DEFAULT.

(** Parameters that exist: results of constructors on machine values *)
Inductive created (jen : list Z -> Z) : param -> Prop :=
| created_numerical nm t lo up q def p :
    ok_name nm -> machine t lo -> machine t up -> machine t q -> machine t def ->
    create_numerical nm t lo up q def = Ok p -> created jen p
| created_categorical t nm vals idx p :
    t = PCATEGORICAL \/ t = PORDINAL \/ t = PDISCRETE -> ok_name nm -> Forall wf_datum vals -> 0 <= idx ->
    create_categorical jen t nm vals idx = Ok p -> created jen p
| created_string nm : ok_name nm -> created jen (create_string nm).

(** Values the public comparison cannot tell apart *)
Definition confused (a b : value) : Prop :=
  match a, b with
  | VFloat x, VFloat y => ~ klt (fkey x) (fkey y) /\ ~ klt (fkey y) (fkey x)
  | _, _ => a = b
  end.
Definition last_confused (def : datum) (vs : list datum) (d : datum) : Prop :=
  exists l1 l2, vs = l1 ++ d :: l2 /\ confused (d_val def) (d_val d) /\
                Forall (fun e => ~ confused (d_val def) (d_val e)) l2.
Definition with_default (p : param) (d : datum) : param :=
  mkParam (p_type p) (p_name p) d (p_interval p) (p_quant p) (p_values p).

(** Raw samples that denote a value of the parameter, and that value *)
Definition raw_ok (p : param) (w : Z) : Prop :=
  if p_type p =? PNUMERICAL then member (p_interval p) w else 0 <= w < lenZ (p_values p).
Definition raw_value (p : param) (w : Z) : datum :=
  if p_type p =? PNUMERICAL then mkDatum (number (i_type (p_interval p)) w) FLAG_DEFAULT
  else nth (Z.to_nat w) (p_values p) ccs_none.

(** Rejection sampling: draw [n] numbers; keep the good ones; as long as some are
    missing draw again, 2, 4, 8, 16 then 32 times as many as are missing. *)
Section Sampling.
  Context {A : Type}.
  Variable keep : A -> bool.
  Variable draw : nat -> nat -> res (list A).
  Variable n : nat.
  Fixpoint collect (coeffs : list nat) (round : nat) (got : list A) : res (list A) :=
    if (n <=? length got)%nat then Ok (firstn n got)
    else match coeffs with
         | [] => Err ERR_SAMPLING_UNSUCCESSFUL
         | c :: cs => do vs <- draw round ((n - length got) * c)%nat;
                      collect cs (S round) (got ++ filter keep vs)
         end.
  Definition sampled (over : bool) : res (list A) :=
    do raw <- draw 0%nat n;
    if over then collect [2; 4; 8; 16; 32]%nat 1 (filter keep raw) else Ok raw.
End Sampling.
Definition draws_counted (draw : nat -> nat -> res (list Z)) : Prop :=
  forall k c l, draw k c = Ok l -> length l = c.

(** The serialised form of a parameter *)
Inductive wire_data : list datum -> list Z -> Prop :=
| wd_nil : wire_data [] []
| wd_cons d l a b : wire_datum (d_val d) a -> wire_data l b -> wire_data (d :: l) (a ++ b).
Definition wire_param_tail (p : param) (bs : list Z) : Prop :=
  if p_type p =? PNUMERICAL then
    (if i_type (p_interval p) =? 2 then bs = word 8 (p_quant p) else leb128 (zigzag (p_quant p)) bs)
  else if p_type p =? PSTRING then bs = []
  else exists n c, leb128 (lenZ (p_values p)) n /\ wire_data (p_values p) c /\ bs = n ++ c.
Definition wire_param (h : Z) (p : param) (bs : list Z) : Prop :=
  exists lh nm d i q, leb128 h lh /\ wire_string (p_name p) nm /\ wire_datum (d_val (p_default p)) d /\
    wire_interval (p_interval p) i /\ wire_param_tail p q /\
    bs = (2 :: lh) ++ [p_type p] ++ nm ++ d ++ i ++ q.
