(** C88: the application's data is saved and loaded by the right callback, called with the right arguments. *)
From Coq Require Import ZArith List Bool.
From Verif Require Import Base Datum CodecModel CodecSpec HookModel HookSpec HookProofs.
Import ListNotations.
Open Scope Z_scope.

(** An application that keeps [bs] for the object: the size is exact, the bytes written are [bs] with their
    length, the callback is asked once for the size and then, if there is room, once for the bytes. *)
Theorem C88_saved app o x ocb oud f u bs b tr :
  served o ocb oud f u -> keeps app f x u bs -> lenZ bs < 2 ^ 64 -> wire_blob bs b ->
  (forall acc, hook_size app o x ocb oud acc tr = (Ok (wrap 64 (acc + lenZ b)), tr ++ [asks f x u])) /\
  encodes (fun s => fst (hook_save app o x ocb oud s tr)) b /\
  (forall s, wf_w s -> snd (hook_save app o x ocb oud s tr) =
     if w_size s <? lenZ b then tr ++ [asks f x u] else tr ++ [asks f x u; stores f x (lenZ bs) u]).
Proof. exact (save_kept app o x ocb oud f u bs b tr). Qed.

(** No user data, or no callback: one byte, nothing is called. *)
Theorem C88_nothing app o x ocb oud tr : unserved o ocb ->
  (forall acc, hook_size app o x ocb oud acc tr = (Ok (wrap 64 (acc + 1)), tr)) /\
  encodes (fun s => fst (hook_save app o x ocb oud s tr)) [0] /\
  (forall s, snd (hook_save app o x ocb oud s tr) = tr).
Proof. exact (save_unserved app o x ocb oud tr). Qed.

(** One of the two cases always applies, never both, and the callback is determined. *)
Theorem C88_cases o ocb oud :
  ((exists f u, served o ocb oud f u) \/ unserved o ocb) /\
  (forall f u, served o ocb oud f u -> ~ unserved o ocb) /\
  (forall f u f' u', served o ocb oud f u -> served o ocb oud f' u' -> f = f' /\ u = u').
Proof. exact (served_once o ocb oud). Qed.

(** Errors of the application are returned unchanged, and nothing more is called. *)
Theorem C88_refused_size app o x ocb oud f u tr c n :
  served o ocb oud f u -> app tr (asks f x u) = mkAns c n [] -> c < 0 ->
  (forall acc, hook_size app o x ocb oud acc tr = (Err c, tr ++ [asks f x u])) /\
  (forall s, hook_save app o x ocb oud s tr = (Err c, tr ++ [asks f x u])).
Proof. exact (ask_refused app o x ocb oud f u tr c n). Qed.
Theorem C88_refused_data app o x ocb oud f u tr c c' n l bs s :
  served o ocb oud f u ->
  app tr (asks f x u) = mkAns c (Some n) [] -> 0 <= c -> 0 <= n < 2 ^ 64 -> leb128 n l ->
  app (tr ++ [asks f x u]) (stores f x n u) = mkAns c' None bs -> lenZ bs <= n -> c' < 0 ->
  wf_w s -> lenZ l + n <= w_size s ->
  hook_save app o x ocb oud s tr = (Err c', tr ++ [asks f x u; stores f x n u]).
Proof. exact (store_refused app o x ocb oud f u tr c c' n l bs s). Qed.

(** Whatever the application answers, even if it changes its mind about the size, as long as it stays within
    what it is given: nothing is written outside the buffer, and what is written is a block the reader can
    delimit, starting with what the application stored. *)
Theorem C88_tame app o x ocb oud s tr : tame app -> wf_w s ->
  match hook_save app o x ocb oud s tr with
  | (Ok s', tr') =>
      exists q b, wire_blob q b /\ w_done s' = w_done s ++ b /\ w_rest s' = skipn (length b) (w_rest s) /\
        lenZ b <= w_size s /\ w_size s' = w_size s - lenZ b /\
        ((unserved o ocb /\ tr' = tr /\ q = []) \/
         exists f u t, served o ocb oud f u /\ tr' = tr ++ [asks f x u; stores f x (lenZ q) u] /\
           q = a_bytes (app (tr ++ [asks f x u]) (stores f x (lenZ q) u)) ++ t)
  | (Err c, tr') =>
      c < 0 /\ (tr' = tr \/ exists f u, served o ocb oud f u /\ (tr' = tr ++ [asks f x u] \/ exists n, tr' = tr ++ [asks f x u; stores f x n u]))
  | (UB _, _) => False
  end.
Proof. exact (save_tame app o x ocb oud s tr). Qed.

(** Loading: the callback gets exactly the bytes saved, once; it is not called for an empty block. *)
Theorem C88_loaded app x dcb dud bs b tl n tr :
  lenZ bs < 2 ^ 64 -> wire_blob bs b -> lenZ b <= n <= lenZ (b ++ tl) -> n < 2 ^ 64 ->
  hook_load app x dcb dud (mkR (b ++ tl) n) tr =
    if (lenZ bs =? 0) || (dcb =? 0) then (Ok (mkR tl (n - lenZ b)), tr)
    else let k := Load dcb x (lenZ bs) bs dud in let c := a_code (app tr k) in
         (if c <? 0 then Err c else Ok (mkR tl (n - lenZ b)), tr ++ [k]).
Proof. exact (load_called app x dcb dud bs b tl n tr). Qed.

(** Saved by one application, loaded by another: it is given the new object, exactly the bytes that the first
    one stored, and its own pointer; the reader ends just behind them. *)
Theorem C88_back app app' o x ocb oud f u bs : served o ocb oud f u -> keeps app f x u bs -> bs <> [] -> lenZ bs < 2 ^ 64 ->
  exists b, (forall acc tr, fst (hook_size app o x ocb oud acc tr) = Ok (wrap 64 (acc + lenZ b))) /\
  forall s tr, wf_w s -> lenZ b <= w_size s ->
  exists s' tr', hook_save app o x ocb oud s tr = (Ok s', tr') /\ w_done s' = w_done s ++ b /\ w_size s' = w_size s - lenZ b /\
  forall y dcb dud tl tr2, dcb <> 0 -> lenZ (b ++ tl) < 2 ^ 64 ->
    hook_load app' y dcb dud (mkR (b ++ tl) (lenZ (b ++ tl))) tr2 =
      (let c := a_code (app' tr2 (Load dcb y (lenZ bs) bs dud)) in if c <? 0 then Err c else Ok (mkR tl (lenZ tl)), tr2 ++ [Load dcb y (lenZ bs) bs dud]).
Proof. exact (saved_loaded app app' o x ocb oud f u bs). Qed.

(** Setting data or a callback: read back, effective, other objects untouched; NULL arguments. *)
Theorem C88_set m x ud cb cud p :
  (x <> 0 -> exists m1 m2, set_user_data x ud m = Ok m1 /\ set_serialize_callback x cb cud m = Ok m2 /\
     (p <> 0 -> get_user_data x p m1 = Ok ud /\ get_user_data x p m2 = get_user_data x p m) /\
     (forall y, y <> x -> m1 y = m y /\ m2 y = m y) /\
     (forall ocb oud f u, ud <> 0 -> (served (m1 x) ocb oud f u <-> served (mkHobj 1 (h_cb (m x)) (h_cbud (m x))) ocb oud f u)) /\
     (forall ocb, ud = 0 -> unserved (m1 x) ocb) /\
     (forall ocb oud f u, h_ud (m x) <> 0 -> cb <> 0 -> (served (m2 x) ocb oud f u <-> f = cb /\ u = cud)) /\
     (forall ocb oud f u, h_ud (m x) <> 0 -> cb = 0 -> (served (m2 x) ocb oud f u <-> ocb <> 0 /\ f = ocb /\ u = oud))) /\
  set_user_data 0 ud m = Err ERR_INVALID_OBJECT /\ set_serialize_callback 0 cb cud m = Err ERR_INVALID_OBJECT /\
  get_user_data 0 p m = Err ERR_INVALID_OBJECT /\ (x <> 0 -> get_user_data x 0 m = Err ERR_INVALID_VALUE).
Proof. exact (setters m x ud cb cud p). Qed.

(** The documentation says that a size of zero is given "when querying the size".  A callback with nothing
    to save is called a second time with size zero, and a NULL serialize_data_size_ret: taking the
    documentation at its word it stores through NULL. *)
Theorem C88_zero_size_is_a_query_refuted :
  exists app, (forall tr f x data ret u, app tr (Save f x 0 data ret u) = mkAns 0 (Some 0) []) /\
    forall o x ocb oud f u s tr, served o ocb oud f u -> wf_w s -> 1 <= w_size s ->
      fst (hook_save app o x ocb oud s tr) = UB UBBounds.
Proof. exact zero_size_query. Qed.

Definition hk_app (tr : list call) (k : call) : answer :=
  match k with
  | Save 11 _ 0 false true _ => mkAns 0 (Some 3) []
  | Save 11 _ 3 true false _ => mkAns 0 None [7; 8; 9]
  | Save 12 _ _ _ _ _ => mkAns (-9) None []
  | Save 13 _ _ false _ _ => mkAns 0 (Some (2 + lenZ tr)) []
  | Save 13 _ _ true _ _ => mkAns 0 None [5]
  | Load 14 _ _ (b :: _) _ => mkAns (if b =? 7 then 0 else -3) None []
  | _ => mkAns 0 None []
  end.
Definition hk_w (n : nat) : wstate := mkW [1] (repeat 0 n) (Z.of_nat n).
Example C88_ex :
  keeps hk_app 11 500 21 [7; 8; 9] /\ wire_blob [7; 8; 9] [3; 7; 8; 9] /\
  hook_save hk_app (mkHobj 99 11 21) 500 12 22 (hk_w 5) [] =
    (Ok (mkW [1; 3; 7; 8; 9] [0] 1), [Save 11 500 0 false true 21; Save 11 500 3 true false 21]) /\
  hook_save hk_app (mkHobj 99 0 0) 500 11 22 (hk_w 3) [] = (Err ERR_NOT_ENOUGH_DATA, [Save 11 500 0 false true 22]) /\
  hook_save hk_app (mkHobj 0 11 21) 500 12 22 (hk_w 3) [] = (Ok (mkW [1; 0] [0; 0] 2), []) /\
  hook_save hk_app (mkHobj 99 0 21) 500 12 22 (hk_w 3) [] = (Err (-9), [Save 12 500 0 false true 22]) /\
  hook_save hk_app (mkHobj 99 13 21) 500 0 0 (hk_w 5) [Save 13 500 0 false true 21] =
    (Ok (mkW [1; 3; 5; 0; 0] [0] 1), [Save 13 500 0 false true 21; Save 13 500 0 false true 21; Save 13 500 3 true false 21]) /\
  hook_load hk_app 600 14 31 (mkR [3; 7; 8; 9; 1] 5) [] = (Ok (mkR [1] 1), [Load 14 600 3 [7; 8; 9] 31]) /\
  hook_load hk_app 600 14 31 (mkR [1; 6; 1] 3) [] = (Err (-3), [Load 14 600 1 [6] 31]) /\
  hook_load hk_app 600 14 31 (mkR [0; 1] 2) [] = (Ok (mkR [1] 1), []).
Proof.
  split; [split; intros tr; exists 0; split; easy|]. split; [exists [3]; split; [now apply leb_last|reflexivity]|].
  repeat split; vm_compute; reflexivity.
Qed.

Print Assumptions C88_saved.
Print Assumptions C88_nothing.
Print Assumptions C88_cases.
Print Assumptions C88_refused_size.
Print Assumptions C88_refused_data.
Print Assumptions C88_tame.
Print Assumptions C88_loaded.
Print Assumptions C88_back.
Print Assumptions C88_set.
Print Assumptions C88_zero_size_is_a_query_refuted.
