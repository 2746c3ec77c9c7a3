(** What decoders do of arbitrary bytes. The buffer is the whole allocation. *)
From Coq Require Import ZArith List Bool.
From Verif Require Import Base Datum CodecModel CodecSpec FrameModel.
Import ListNotations.
Open Scope Z_scope.

(** [r]: an error, undefined behaviour, or a value and the bytes that are left *)
Definition reads {A} (de : rstate -> res (A * rstate)) (bs : list Z) (r : res (A * list Z)) : Prop :=
  de (mkR bs (lenZ bs)) = match r with Ok (a, rest) => Ok (a, mkR rest (lenZ rest)) | Err e => Err e | UB u => UB u end.
(** [R] says what [de] does, whatever the bytes *)
Definition settled_by {A} (R : list Z -> res (A * list Z) -> Prop) (de : rstate -> res (A * rstate)) : Prop :=
  forall bs, byte_string bs -> lenZ bs < 2 ^ 64 -> (exists r, R bs r) /\ forall r, R bs r -> reads de bs r.

(** One thing then another *)
Inductive chain {A B} (R : list Z -> res (A * list Z) -> Prop) (K : A -> list Z -> res (B * list Z) -> Prop) (bs : list Z) : res (B * list Z) -> Prop :=
| ch_error e : R bs (Err e) -> chain R K bs (Err e)
| ch_undefined u : R bs (UB u) -> chain R K bs (UB u)
| ch_next a rest r : R bs (Ok (a, rest)) -> K a rest r -> chain R K bs r.
Definition done {A B} (f : A -> B) (a : A) (rest : list Z) (r : res (B * list Z)) : Prop := r = Ok (f a, rest).

(** Numbers, as groups of 7 bits: all bytes but the last have their high bit set. At most 5
    groups for 32 bits, 10 for 64 bits; what exceeds the width is lost. *)
Definition continued (b : Z) : Prop := 128 <= b < 256.
Fixpoint groups_value (p : list Z) : Z := match p with [] => 0 | b :: t => b mod 128 + 128 * groups_value t end.
Definition groups (w : Z) : Z := if w =? 32 then 5 else 10.
Inductive varint_case (w : Z) (bs : list Z) : res (Z * list Z) -> Prop :=
| vc_value q b rest : bs = q ++ b :: rest -> Forall continued q -> 0 <= b < 128 -> lenZ q < groups w ->
    varint_case w bs (Ok (groups_value (q ++ [b]) mod 2 ^ w, rest))
| vc_cut : Forall continued bs -> lenZ bs <= groups w -> varint_case w bs (Err ERR_NOT_ENOUGH_DATA)
| vc_overlong q rest : bs = q ++ rest -> Forall continued q -> lenZ q = groups w -> rest <> [] -> varint_case w bs (UB UBShift).
Definition signed_case (w : Z) : list Z -> res (Z * list Z) -> Prop :=
  chain (varint_case w) (fun u rest r => exists i, in_signed w i /\ zigzag i = u /\ r = Ok (i, rest)).
(** Words of [n] bytes *)
Inductive word_case (n : nat) (bs : list Z) : res (Z * list Z) -> Prop :=
| wc_value x rest : bs = word n x ++ rest -> 0 <= x < 256 ^ Z.of_nat n -> word_case n bs (Ok (x, rest))
| wc_cut : lenZ bs < Z.of_nat n -> word_case n bs (Err ERR_NOT_ENOUGH_DATA).
(** Strings: the terminator is looked for in all that follows the size *)
Inductive characters (sz : Z) (bs : list Z) : res (list Z * list Z) -> Prop :=
| cs_cut : lenZ bs < sz -> characters sz bs (Err ERR_NOT_ENOUGH_DATA)
| cs_unterminated : sz <= lenZ bs -> ~ In 0 bs -> characters sz bs (UB UBString)
| cs_value s more : sz <= lenZ bs -> bs = s ++ 0 :: more -> ~ In 0 s -> characters sz bs (Ok (s, skipn (Z.to_nat sz) bs)).
Definition string_case : list Z -> res (list Z * list Z) -> Prop := chain (varint_case 64) characters.
(** Blobs *)
Inductive content (e : res (list Z * list Z)) (sz : Z) (bs : list Z) : res (list Z * list Z) -> Prop :=
| ct_cut : lenZ bs < sz -> content e sz bs e
| ct_value : sz <= lenZ bs -> content e sz bs (Ok (firstn (Z.to_nat sz) bs, skipn (Z.to_nat sz) bs)).
Definition blob_case := chain (varint_case 64) (content (Err ERR_NOT_ENOUGH_DATA)).
(** user data are not checked to be there *)
Definition user_data_case := chain (varint_case 64) (content (UB UBBounds)).
(** Intervals *)
Definition bounds_case (t : Z) : list Z -> res ((Z * Z) * list Z) -> Prop :=
  if t =? NUM_FLOAT then chain (word_case 8) (fun l => chain (word_case 8) (done (fun u => (l, u))))
  else chain (signed_case 64) (fun l => chain (signed_case 64) (done (fun u => (l, u)))).
Definition interval_case : list Z -> res (interval * list Z) -> Prop :=
  chain (varint_case 32) (fun t => chain (bounds_case t) (fun lu => chain (varint_case 32) (fun li => chain (varint_case 32)
    (done (fun ui => mkInterval t (fst lu) (snd lu) (negb (li =? 0)) (negb (ui =? 0))))))).
(** Values *)
Inductive payload (t : Z) (bs : list Z) : res (datum * list Z) -> Prop :=
| pl_none : t = 0 -> payload t bs (Ok (mkDatum VNone 0, bs))
| pl_int r : t = 1 -> chain (signed_case 64) (done (fun i => mkDatum (VInt i) 0)) bs r -> payload t bs r
| pl_float r : t = 2 -> chain (word_case 8) (done (fun f => mkDatum (VFloat f) 0)) bs r -> payload t bs r
| pl_bool r : t = 3 -> chain (varint_case 32) (done (fun b => mkDatum (VBool b) 0)) bs r -> payload t bs r
| pl_string r : t = 4 -> chain string_case (done (fun s => mkDatum (VString (Some s)) FLAG_TRANSIENT)) bs r -> payload t bs r
| pl_inactive : t = 5 -> payload t bs (Ok (mkDatum VInactive 0, bs))
| pl_object r : t = 6 -> chain (varint_case 64) (done (fun h => mkDatum (VObject h) FLAG_ID)) bs r -> payload t bs r
| pl_other : ~ 0 <= t <= 6 -> payload t bs (Err ERR_INVALID_TYPE).
Definition datum_case : list Z -> res (datum * list Z) -> Prop := chain (varint_case 32) payload.
Definition object_case : list Z -> res ((Z * Z) * list Z) -> Prop :=
  chain (varint_case 32) (fun t => chain (varint_case 64) (done (fun h => (t, h)))).
(** Headers: the tag, the announced size, the version of the format *)
Inductive tag_case (bs : list Z) : res (unit * list Z) -> Prop :=
| tc_cut : lenZ bs < 4 -> tag_case bs (Err ERR_NOT_ENOUGH_DATA)
| tc_wrong tag rest : bs = tag ++ rest -> length tag = 4%nat -> tag <> [67; 67; 83; 0] -> tag_case bs (Err ERR_INVALID_VALUE)
| tc_right rest : bs = [67; 67; 83; 0] ++ rest -> tag_case bs (Ok (tt, rest)).
Inductive version_case (size v : Z) (bs : list Z) : res ((Z * Z) * list Z) -> Prop :=
| ve_unknown : 1 < v -> version_case size v bs (Err ERR_INVALID_VALUE)
| ve_known : v <= 1 -> version_case size v bs (Ok ((size, v), bs)).
Definition header_case : list Z -> res ((Z * Z) * list Z) -> Prop :=
  chain tag_case (fun _ => chain (word_case 8) (fun size => chain (varint_case 32) (version_case size))).
