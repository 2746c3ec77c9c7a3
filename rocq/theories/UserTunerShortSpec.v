(** What saving a user defined tuner promises when the application stores less state than it announced. *)
From Coq Require Import ZArith List Bool.
From Verif Require Import Base Datum CodecModel CodecSpec EvalModel RestoreModel TunerCodecModel UserTunerModel.
Import ListNotations.
Open Scope Z_scope.

(** What the application says: [n] bytes of state are announced, [b] is stored. *)
Definition answers_short {E} (a : app E) (H : list (eobj E)) (O : list Z) (n : Z) (b : list Z) : Prop :=
  ap_history_count a = Ok (lenZ H) /\ (H <> [] -> ap_history a (lenZ H) = Ok (map Some H)) /\
  ap_optima_count a = Ok (lenZ O) /\ (O <> [] -> ap_optima a (lenZ O) = Ok O) /\
  exists get, ap_state a = Some (Ok n, get) /\ get n = Ok b.
(** [ser] writes as much as was announced; the state is [b] followed by what the buffer held. *)
Definition writes_short (ser : wstate -> res wstate) (z n : Z) (b : list Z) (wire : list Z -> list Z -> Prop) : Prop :=
  forall s, wf_w s ->
    (w_size s < z -> ser s = Err ERR_NOT_ENOUGH_DATA) /\
    (z <= w_size s -> exists k rest bs s', rest = firstn (Z.to_nat (n - lenZ b)) (skipn k (w_rest s)) /\ lenZ (b ++ rest) = n /\
       wire (b ++ rest) bs /\ lenZ bs = z /\ ser s = Ok s' /\ w_done s' = w_done s ++ bs /\ w_rest s' = skipn (length bs) (w_rest s) /\ w_size s' = w_size s - z).
