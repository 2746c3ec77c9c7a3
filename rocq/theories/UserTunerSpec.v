(** What saving, restoring and calling user defined tuners promises. *)
From Coq Require Import ZArith List Bool.
From Verif Require Import Base Datum CodecModel CodecSpec CmpModel ParamModel ParamSpec ContextModel EvalModel TreeModel TreeCodecSpec RngModel TreeSpaceModel TreeSpaceSpec TreeConfModel TreeConfSpec RestoreModel RestoreSpec TunerCodecModel TunerCodecSpec UserTunerModel.
Import ListNotations.
Open Scope Z_scope.

(** ** What the application says *)
(** the history [H], the optima [O] and the state [st], without contradicting itself *)
Definition answers {E} (a : app E) (H : list (eobj E)) (O st : list Z) : Prop :=
  ap_history_count a = Ok (lenZ H) /\ (H <> [] -> ap_history a (lenZ H) = Ok (map Some H)) /\
  ap_optima_count a = Ok (lenZ O) /\ (O <> [] -> ap_optima a (lenZ O) = Ok O) /\
  match ap_state a with None => st = [] | Some (count, get) => count = Ok (lenZ st) /\ (st <> [] -> get (lenZ st) = Ok st) end.
(** the tuner with what it says *)
Definition speaks {E Sp} (t : utuner Sp (app E)) (H : list (eobj E)) (O : list Z) : rtuner E Sp :=
  mkRT (ut_id t) (ut_name t) (ut_spaces t) H O (ut_ud t).

(** ** What is written: like a random tuner, but for the type, with the state before the user
    data *)
Definition wire_user {E Sp} (oty : Z) (sb : list Z) (wire_e : eobj E -> list Z -> Prop) (t : rtuner E Sp) (st bs : list Z) : Prop :=
  exists lh nb hn on hb ob tb ub,
    leb128 (rt_id t) lh /\ wire_string (rt_name t) nb /\ leb128 (lenZ (rt_history t)) hn /\ leb128 (lenZ (rt_optima t)) on /\
    wire_all wire_e (rt_history t) hb /\ wire_sizes (rt_optima t) ob /\ wire_blob st tb /\ wire_blob (ud_bytes (rt_ud t)) ub /\
    bs = (oty :: lh) ++ [1] ++ nb ++ sb ++ hn ++ on ++ hb ++ ob ++ tb ++ ub.

(** ** What cannot be written *)
(** [ser] ends with the error [e] as soon as the buffer has [room] bytes *)
Definition stops (ser : wstate -> res wstate) (e room : Z) : Prop :=
  forall s, wf_w s -> (room <= w_size s -> ser s = Err e) /\ (w_size s < room -> ser s = Err ERR_NOT_ENOUGH_DATA).
(** The application fails with [e]: [n] bytes come before, those of the beginning [head] among
    them *)
Inductive fails_with {E} (mem : Z -> bool) (wire_e : eobj E -> list Z -> Prop) (a : app E) (head : Z) : Z -> Z -> Prop :=
| fw_history_count e : ap_history_count a = Err e -> fails_with mem wire_e a head e head
| fw_optima_count nh e : ap_history_count a = Ok nh -> ap_optima_count a = Err e -> fails_with mem wire_e a head e head
| fw_memory nh no hn on : ap_history_count a = Ok nh -> ap_optima_count a = Ok no -> 0 <= nh -> 0 <= no -> nh + no < 2 ^ 64 -> leb128 nh hn -> leb128 no on ->
    refused_memory mem (8 * (nh + no)) -> fails_with mem wire_e a head ERR_OUT_OF_MEMORY (head + lenZ hn + lenZ on)
| fw_history nh no hn on e : ap_history_count a = Ok nh -> ap_optima_count a = Ok no -> 0 < nh -> 0 <= no -> nh + no < 2 ^ 64 -> leb128 nh hn -> leb128 no on ->
    granted mem (8 * (nh + no)) -> ap_history a nh = Err e -> fails_with mem wire_e a head e (head + lenZ hn + lenZ on)
| fw_optima H no hn on hb e : ap_history_count a = Ok (lenZ H) -> ap_optima_count a = Ok no -> 0 < no -> lenZ H + no < 2 ^ 64 -> leb128 (lenZ H) hn -> leb128 no on ->
    granted mem (8 * (lenZ H + no)) -> (H <> [] -> ap_history a (lenZ H) = Ok (map Some H)) -> wire_all wire_e H hb -> ap_optima a no = Err e ->
    fails_with mem wire_e a head e (head + lenZ hn + lenZ on + lenZ hb)
| fw_state_count H O hn on hb ob e get : ap_history_count a = Ok (lenZ H) -> ap_optima_count a = Ok (lenZ O) -> lenZ H + lenZ O < 2 ^ 64 -> leb128 (lenZ H) hn -> leb128 (lenZ O) on ->
    granted mem (8 * (lenZ H + lenZ O)) -> (H <> [] -> ap_history a (lenZ H) = Ok (map Some H)) -> wire_all wire_e H hb ->
    (O <> [] -> ap_optima a (lenZ O) = Ok O) -> Forall (in_unsigned 64) O -> wire_sizes O ob -> ap_state a = Some (Err e, get) ->
    fails_with mem wire_e a head e (head + lenZ hn + lenZ on + lenZ hb + lenZ ob).
(** The application fails with [e] when it is asked for the bytes of the state, for which there
    must be room; asking for the size does not ask for them *)
Inductive state_fails {E} (mem : Z -> bool) (wire_e : eobj E -> list Z -> Prop) (a : app E) (head : Z) : Z -> Z -> Prop :=
| sf_state H O hn on hb ob n sn e get : ap_history_count a = Ok (lenZ H) -> ap_optima_count a = Ok (lenZ O) -> lenZ H + lenZ O < 2 ^ 64 -> leb128 (lenZ H) hn -> leb128 (lenZ O) on ->
    granted mem (8 * (lenZ H + lenZ O)) -> (H <> [] -> ap_history a (lenZ H) = Ok (map Some H)) -> wire_all wire_e H hb ->
    (O <> [] -> ap_optima a (lenZ O) = Ok O) -> Forall (in_unsigned 64) O -> wire_sizes O ob -> 0 < n < 2 ^ 64 -> leb128 n sn ->
    ap_state a = Some (Ok n, get) -> get n = Err e ->
    state_fails mem wire_e a head e (head + lenZ hn + lenZ on + lenZ hb + lenZ ob + lenZ sn + n).
(** an evaluation that can be written *)
Definition writes {A} (ser : A -> wstate -> res wstate) (size : A -> res Z) (a : A) (bs : list Z) : Prop := encodes (ser a) bs /\ size a = Ok (lenZ bs).
(** bytes of the type, the handle, the name and the spaces *)
Definition wire_head {E Sp} (oty : Z) (sb : list Z) (t : utuner Sp (app E)) (bs : list Z) : Prop :=
  exists lh nb, leb128 (ut_id t) lh /\ wire_string (ut_name t) nb /\ bs = (oty :: lh) ++ [1] ++ nb ++ sb.

(** ** What is had of it *)
(** what the application makes of what it is told *)
Definition takes_back {E D St} (v : vector E D St) (data : D) (H : list (eobj E)) (O st : list Z) : res St :=
  match v_restore v with Some f => f data H O st | None => v_tell v data H end.
Section Outcome.
  Variables (E Sp D St : Type) (mem : Z -> bool).
  Variable step : nat -> hmap -> eobj E -> res (eobj E * hmap) -> Prop.
  (** the vector and the pointer of the application, the map and the address *)
  Variables (v : vector E D St) (data : D) (outer : option hmap) (id : Z).
  (** [t], [st] was saved; [sp], [m] are the spaces that were read, and their handles *)
  Inductive user_outcome (t : rtuner E Sp) (st : list Z) (sp : Sp) (m : hmap) : res (utuner Sp St * option hmap) -> Prop :=
  | us_data e : tuner_outcome E Sp mem step None id t sp m (Err e) -> user_outcome t st sp m (Err e)
  | us_vector t' k : tuner_outcome E Sp mem step None id t sp m (Ok (t', k)) -> v_complete v = false -> user_outcome t st sp m (Err ERR_INVALID_VALUE)
  | us_refused t' k e : tuner_outcome E Sp mem step None id t sp m (Ok (t', k)) -> v_complete v = true ->
      takes_back v data (rt_history t') (rt_optima t') st = Err e -> user_outcome t st sp m (Err e)
  | us_again t' k s known : tuner_outcome E Sp mem step None id t sp m (Ok (t', k)) -> v_complete v = true ->
      takes_back v data (rt_history t') (rt_optima t') st = Ok s -> outer = Some known -> known (rt_id t) <> None -> user_outcome t st sp m (Err ERR_DUPLICATE_HANDLE)
  | us_had t' k s : tuner_outcome E Sp mem step None id t sp m (Ok (t', k)) -> v_complete v = true ->
      takes_back v data (rt_history t') (rt_optima t') st = Ok s -> (forall known, outer = Some known -> known (rt_id t) = None) ->
      user_outcome t st sp m (Ok (mkUT id (rt_name t) sp s (restored_ud (rt_ud t)), noted outer (rt_id t) id)).
End Outcome.
(** [rs]: what was had of the spaces *)
Inductive user_saved (E Sp D St : Type) (mem : Z -> bool) (step : Sp -> nat -> hmap -> eobj E -> res (eobj E * hmap) -> Prop) (v : vector E D St) (data : D) (outer : option hmap) (id : Z)
  (t : rtuner E Sp) (st : list Z) : res (Sp * hmap) -> res ((rtuner E Sp + utuner Sp St) * option hmap) -> Prop :=
| ud_spaces err : user_saved E Sp D St mem step v data outer id t st (Err err) (Err err)
| ud_fails sp m e : user_outcome E Sp D St mem (step sp) v data outer id t st sp m (Err e) -> user_saved E Sp D St mem step v data outer id t st (Ok (sp, m)) (Err e)
| ud_had sp m u k : user_outcome E Sp D St mem (step sp) v data outer id t st sp m (Ok (u, k)) -> user_saved E Sp D St mem step v data outer id t st (Ok (sp, m)) (Ok (inr u, k)).
(** What the application is told: with evaluations that may be restored one by one, the same
    history in the same order, the same elements of it as optima, the same state *)
Definition tells_back (mem : Z -> bool) {E} (Sp : Type) (step : nat -> hmap -> eobj E -> res (eobj E * hmap) -> Prop) : Prop :=
  forall D St (v : vector E D St) data outer id m (t : rtuner E Sp) st sp H', v_complete v = true ->
  granted mem (8 * (lenZ (rt_history t) + lenZ (rt_optima t))) -> history_restored step m (rt_history t) H' -> handles_apart m (rt_history t) ->
  incl (rt_optima t) (map eo_id (rt_history t)) -> (forall k, outer = Some k -> k (rt_id t) = None) ->
  exists os, same_optima (rt_history t) H' (rt_optima t) os /\
    match takes_back v data H' os st with
    | Ok s => user_outcome E Sp D St mem step v data outer id t st sp m (Ok (mkUT id (rt_name t) sp s (restored_ud (rt_ud t)), noted outer (rt_id t) id))
    | Err e => user_outcome E Sp D St mem step v data outer id t st sp m (Err e)
    | UB _ => True
    end.

(** ** Other tuners *)
Definition lifted {E Sp St} (r : res (rtuner E Sp * option hmap * rstate)) : res ((rtuner E Sp + utuner Sp St) * option hmap * rstate) :=
  match r with Ok (t, k, s) => Ok (inl t, k, s) | Err e => Err e | UB u => UB u end.
Definition as_random {E Sp St} (r : res (rtuner E Sp * option hmap)) : res ((rtuner E Sp + utuner Sp St) * option hmap) :=
  match r with Ok (t, k) => Ok (inl t, k) | Err e => Err e | UB u => UB u end.

(** ** Calls *)
Section Calls.
  Variables (is_tuner : bool) (is_features : Z -> bool) (fits : Z -> res bool) (feat has_suggest : bool).
  (** arguments of arrays: an array or a place for the count, and an array if it has cells *)
  Definition good_arrays (n array count : Z) : Prop := (0 < n -> array <> 0) /\ (array <> 0 \/ count <> 0).
  (** what the application is called with *)
  Definition good_call (c : call) : Prop :=
    is_tuner = true /\
    match c with
    | CAsk f n a k => good_arrays n a k /\ (feat = true -> is_features f = true /\ fits f = Ok true)
    | CTell n a => 0 < n -> a <> 0
    | COptima f n a k | CHistory f n a k => good_arrays n a k /\ (feat = true -> f <> 0 -> is_features f = true)
    | CSuggest f r => r <> 0 /\ has_suggest = true /\ (feat = true -> is_features f = true /\ fits f = Ok true)
    end.
  (** other calls, the first of these that applies *)
  Definition wrong_features (c : call) : Prop :=
    feat = true /\ match c with CAsk f _ _ _ | CSuggest f _ => is_features f = false | CTell _ _ => False | COptima f _ _ _ | CHistory f _ _ _ => f <> 0 /\ is_features f = false end.
  Definition wrong_arrays (c : call) : Prop :=
    match c with CAsk _ n a k | COptima _ n a k | CHistory _ n a k => ~ good_arrays n a k | CTell n a => 0 < n /\ a = 0 | CSuggest _ r => r = 0 end.
  Definition fit_of (c : call) : option Z := match c with CAsk f _ _ _ | CSuggest f _ => if feat then Some f else None | _ => None end.
  Inductive bad_call (c : call) : Z -> Prop :=
  | bc_object : is_tuner = false -> bad_call c ERR_INVALID_OBJECT
  | bc_features : is_tuner = true -> wrong_features c -> bad_call c ERR_INVALID_OBJECT
  | bc_arrays : is_tuner = true -> ~ wrong_features c -> wrong_arrays c -> bad_call c ERR_INVALID_VALUE
  | bc_fits f e : is_tuner = true -> ~ wrong_features c -> ~ wrong_arrays c -> fit_of c = Some f -> fits f = Err e -> bad_call c e
  | bc_unfit f : is_tuner = true -> ~ wrong_features c -> ~ wrong_arrays c -> fit_of c = Some f -> fits f = Ok false -> bad_call c ERR_INVALID_FEATURES
  | bc_suggest f r : is_tuner = true -> ~ wrong_features c -> ~ wrong_arrays c -> (forall g, fit_of c = Some g -> fits g = Ok true) -> c = CSuggest f r -> has_suggest = false ->
      bad_call c ERR_UNSUPPORTED_OPERATION.
End Calls.
