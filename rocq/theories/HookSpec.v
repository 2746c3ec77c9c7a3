(** What the application may rely on about its callbacks, written without the model's helpers. *)
From Coq Require Import ZArith List Bool.
From Verif Require Import Base Datum CodecModel CodecSpec HookModel.
Import ListNotations.
Open Scope Z_scope.

(** [served o ocb oud f u]: saving object [o] with the option callback [ocb] calls [f] with [u].  The
    object's own callback comes first; an object without user data calls nothing. *)
Inductive served (o : hobj) (ocb oud : Z) : Z -> Z -> Prop :=
| own_callback : h_ud o <> 0 -> h_cb o <> 0 -> served o ocb oud (h_cb o) (h_cbud o)
| option_callback : h_ud o <> 0 -> h_cb o = 0 -> ocb <> 0 -> served o ocb oud ocb oud.
Definition unserved (o : hobj) (ocb : Z) : Prop := h_ud o = 0 \/ (h_cb o = 0 /\ ocb = 0).

(** The two calls: what is your size; store your data in these [n] bytes. *)
Definition asks (f x u : Z) : call := Save f x 0 false true u.
Definition stores (f x n u : Z) : call := Save f x n true false u.

(** The application has [bs] to save for object [x]: it says so whenever it is asked, and stores it. *)
Definition keeps (app : list call -> call -> answer) (f x u : Z) (bs : list Z) : Prop :=
  (forall tr, exists c, 0 <= c /\ app tr (asks f x u) = mkAns c (Some (lenZ bs)) []) /\
  (forall tr, exists c, 0 <= c /\ app tr (stores f x (lenZ bs) u) = mkAns c None bs).

(** The application never stores through a NULL pointer nor beyond the size it is given; it may otherwise
    answer anything, and differently each time. *)
Definition tame (app : list call -> call -> answer) : Prop :=
  forall tr f x sz data ret u,
    let a := app tr (Save f x sz data ret u) in
    (ret = false -> a_size a = None) /\
    (data = false -> a_bytes a = []) /\
    lenZ (a_bytes a) <= sz.
