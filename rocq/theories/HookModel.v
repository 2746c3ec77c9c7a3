(** Application data attached to objects, and the application's callbacks that save and load it:
    ccs_object_set_user_data, ccs_object_get_user_data, ccs_object_set_serialize_callback
    (src/cconfigspace.c 113-143), _ccs_object_serialize_user_data_size,
    _ccs_object_serialize_user_data, _ccs_object_deserialize_user_data
    (src/cconfigspace_internal.h 1080-1197), binary format.

    CodecModel abstracts a callback to the bytes it produces.  Here the calls themselves are modelled: which
    function is called, when, with which arguments, and what an arbitrary answer leads to.  Pointers are
    numbers, 0 is NULL.  The error stack frames pushed by CCS_VALIDATE are left out. *)
From Coq Require Import ZArith List Bool.
From Verif Require Import Base Datum CodecModel.
Import ListNotations.
Open Scope Z_scope.

(** ** Objects: the three fields concerned of _ccs_object_internal_s, src/cconfigspace_internal.h 237-245 *)
Record hobj : Type := mkHobj { h_ud : Z; h_cb : Z; h_cbud : Z }.
(** _ccs_object_init, 255-268 *)
Definition fresh_hobj : hobj := mkHobj 0 0 0.
Definition heap := Z -> hobj.
Definition upd (m : heap) (x : Z) (o : hobj) : heap := fun y => if y =? x then o else m y.

(** ccs_object_set_user_data, src/cconfigspace.c 113-120 *)
Definition set_user_data (x ud : Z) (m : heap) : res heap :=
  if x =? 0 then Err ERR_INVALID_OBJECT else
  Ok (upd m x (mkHobj ud (h_cb (m x)) (h_cbud (m x)))).
(** ccs_object_get_user_data, 122-130; [p] is user_data_ret *)
Definition get_user_data (x p : Z) (m : heap) : res Z :=
  if x =? 0 then Err ERR_INVALID_OBJECT else
  if p =? 0 then Err ERR_INVALID_VALUE else Ok (h_ud (m x)).
(** ccs_object_set_serialize_callback, 132-143 *)
Definition set_serialize_callback (x cb ud : Z) (m : heap) : res heap :=
  if x =? 0 then Err ERR_INVALID_OBJECT else
  Ok (upd m x (mkHobj (h_ud (m x)) cb ud)).

(** ** The application

    [Save f x sz data ret u]: function [f] is called with object x, serialize_data_size = sz, serialize_data
    non-NULL iff [data], serialize_data_size_ret non-NULL iff [ret], callback_user_data = u.
    [Load f x sz bs u]: function [f] is called with object x, serialize_data_size = sz, serialize_data
    pointing to the bytes [bs], callback_user_data = u. *)
Inductive call : Type :=
| Save (f x sz : Z) (data ret : bool) (u : Z)
| Load (f x sz : Z) (bs : list Z) (u : Z).

(** What a call does: the result code, what it stores through serialize_data_size_ret if anything, the bytes
    it stores at serialize_data. *)
Record answer : Type := mkAns { a_code : Z; a_size : option Z; a_bytes : list Z }.

Section Hooks.
(** The application: what it answers may depend on all the calls made before. *)
Variable app : list call -> call -> answer.

(** A computation carries the list of calls made so far. *)
Definition prog (A : Type) : Type := list call -> res A * list call.
Definition give {A} (r : res A) : prog A := fun tr => (r, tr).
Definition after {A B} (m : prog A) (k : A -> prog B) : prog B := fun tr =>
  match m tr with
  | (Ok a, tr) => k a tr
  | (Err e, tr) => (Err e, tr)
  | (UB w, tr) => (UB w, tr)
  end.

(** CCS_VALIDATE(callback(...)), 125-147: a negative code is returned to the caller.  Storing a size through
    NULL, or bytes through NULL or beyond the size given, is an access outside an object. *)
Definition invoke (f x sz : Z) (data ret : bool) (u : Z) : prog answer := fun tr =>
  let k := Save f x sz data ret u in
  let a := app tr k in
  ((if negb ret && match a_size a with Some _ => true | None => false end then UB UBBounds
    else if (if data then sz else 0) <? lenZ (a_bytes a) then UB UBBounds
    else if a_code a <? 0 then Err (a_code a)
    else Ok a), tr ++ [k]).

(** The size query, 1090-1100 and 1125-1136: serialize_data_size is 0 unless a callback stores into it. *)
Definition query (o : hobj) (x ocb oud : Z) : prog Z :=
  let call f u := after (invoke f x 0 false true u) (fun a =>
    give (Ok (match a_size a with Some n => wrap 64 n | None => 0 end))) in
  if negb (h_ud o =? 0) then
    if negb (h_cb o =? 0) then call (h_cb o) (h_cbud o)
    else if negb (ocb =? 0) then call ocb oud
    else give (Ok 0)
  else give (Ok 0).

(** _ccs_object_serialize_user_data_size, 1080-1112; [ocb], [oud]: opts->serialize_callback and
    opts->serialize_user_data; [acc] is *buffer_size. *)
Definition hook_size (o : hobj) (x ocb oud acc : Z) : prog Z :=
  after (query o x ocb oud) (fun n => give (Ok (wrap 64 (acc + (size_size n + n))))).

(** What the buffer holds from the cursor on, over [sz] bytes, once [bs] has been stored there. *)
Definition overlay (sz : Z) (bs : list Z) (s : wstate) : res wstate :=
  if lenZ (w_rest s) <? sz then UB UBBounds else
  put_all (bs ++ skipn (length bs) (firstn (Z.to_nat sz) (w_rest s))) s.

(** _ccs_object_serialize_user_data, 1114-1164 *)
Definition hook_save (o : hobj) (x ocb oud : Z) (s : wstate) : prog wstate :=
  after (query o x ocb oud) (fun n =>
  after (give (ser_size n s)) (fun s1 =>
  let call f u := after (invoke f x n true false u) (fun a =>
    give (do s2 <- overlay n (a_bytes a) s1; Ok (w_sub n s2))) in
  if negb (h_ud o =? 0) then
    if w_size s1 <? n then give (Err ERR_NOT_ENOUGH_DATA)
    else if negb (h_cb o =? 0) then call (h_cb o) (h_cbud o)
    else if negb (ocb =? 0) then call ocb oud
    else give (Ok s1)
  else give (Ok s1))).

(** _ccs_object_deserialize_user_data, 1166-1197; [dcb], [dud]: opts->deserialize_callback and
    opts->deserialize_user_data.  The size read is not compared with *buffer_size: reaching beyond the
    memory is an access outside an object (the callback is given the size and reads that many bytes). *)
Definition hook_load (x dcb dud : Z) (s : rstate) : prog rstate :=
  after (give (deser_size s)) (fun r =>
  let (n, s1) := r in
  if n =? 0 then give (Ok s1) else
  after (if dcb =? 0 then give (Ok tt) else
         after (give (if lenZ (r_mem s1) <? n then UB UBBounds else peek_n (Z.to_nat n) (r_mem s1))) (fun bs =>
         fun tr => let k := Load dcb x n bs dud in
                   let a := app tr k in
                   (if a_code a <? 0 then Err (a_code a) else Ok tt, tr ++ [k])))
  (fun _ => give (advance n s1))).
End Hooks.
