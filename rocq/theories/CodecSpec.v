(** Specification of the wire format, independent of the encoders: which bytes
    represent which value, and what it means for an encoder or a decoder to be
    correct. *)
From Coq Require Import ZArith List Bool.
From Verif Require Import Base Datum CodecModel.
Import ListNotations.
Open Scope Z_scope.

(** Little groups of seven bits, least significant first, high bit set on all
    but the last one; no superfluous group. *)
Inductive leb128 : Z -> list Z -> Prop :=
| leb_last x : 0 <= x < 128 -> leb128 x [x]
| leb_more x bs : 128 <= x -> leb128 (x / 128) bs ->
                  leb128 x ((x mod 128 + 128) :: bs).

(** 0, -1, 1, -2, ... are numbered 0, 1, 2, 3, ... *)
Definition zigzag (x : Z) : Z := if x <? 0 then -2 * x - 1 else 2 * x.

(** i-th byte of a word is its i-th base-256 digit *)
Definition word (n : nat) (x : Z) : list Z :=
  map (fun i => (x / 256 ^ Z.of_nat i) mod 256) (seq 0 n).

Definition wire_blob (b bs : list Z) : Prop :=
  exists l, leb128 (lenZ b) l /\ bs = l ++ b.
Definition wire_string (s bs : list Z) : Prop := wire_blob (s ++ [0]) bs.

Definition wire_bool (b : bool) (bs : list Z) : Prop := bs = [if b then 1 else 0].

Definition wire_interval (i : interval) (bs : list Z) : Prop :=
  exists lo up bl bu,
    (if i_type i =? 2 then lo = word 8 (i_lower i) /\ up = word 8 (i_upper i)
     else leb128 (zigzag (i_lower i)) lo /\ leb128 (zigzag (i_upper i)) up) /\
    wire_bool (i_linc i) bl /\ wire_bool (i_uinc i) bu /\
    bs = [i_type i] ++ lo ++ up ++ bl ++ bu.

Definition wire_datum (v : value) (bs : list Z) : Prop :=
  match v with
  | VNone => bs = [0]
  | VInt i => exists l, leb128 (zigzag i) l /\ bs = 1 :: l
  | VFloat f => bs = 2 :: word 8 f
  | VBool b => bs = [3; b]
  | VString (Some s) => exists l, wire_string s l /\ bs = 4 :: l
  | VString None => False
  | VInactive => bs = [5]
  | VObject h => exists l, leb128 h l /\ bs = 6 :: l
  | VUnknown _ _ => False
  end.

(** What can be serialised: not a NULL string, not an unknown type. *)
Definition serialisable (v : value) : Prop :=
  match v with VString None | VUnknown _ _ => False | _ => True end.

(** A buffer whose announced size is the memory really available. *)
Definition wf_w (s : wstate) : Prop := w_size s = lenZ (w_rest s) /\ w_size s < 2 ^ 64.

(** [ser] writes exactly [bs]: whatever the buffer, it either has the room and
    the bytes are appended, the size accounting being exact, or reports
    NOT_ENOUGH_DATA.  In particular it never writes out of bounds. *)
Definition encodes (ser : wstate -> res wstate) (bs : list Z) : Prop :=
  forall s, wf_w s ->
    (lenZ bs <= w_size s ->
       exists s', ser s = Ok s' /\ w_done s' = w_done s ++ bs /\
                  w_rest s' = skipn (length bs) (w_rest s) /\
                  w_size s' = w_size s - lenZ bs) /\
    (w_size s < lenZ bs -> ser s = Err ERR_NOT_ENOUGH_DATA).

(** [de] reads [a] from [bs]: whatever follows, it consumes exactly [bs]; if the
    announced size stops inside [bs] it reports NOT_ENOUGH_DATA, without using
    the memory behind. *)
Definition decodes {A : Type} (de : rstate -> res (A * rstate)) (a : A) (bs : list Z) : Prop :=
  (forall tl n, lenZ bs <= n <= lenZ (bs ++ tl) -> n < 2 ^ 64 ->
     de (mkR (bs ++ tl) n) = Ok (a, mkR tl (n - lenZ bs))) /\
  (forall p q tl, bs = p ++ q -> q <> [] -> lenZ p < 2 ^ 64 ->
     de (mkR (p ++ tl) (lenZ p)) = Err ERR_NOT_ENOUGH_DATA).

Definition byte_string (bs : list Z) : Prop := Forall is_byte bs.
