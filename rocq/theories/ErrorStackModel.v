(** The error stacks of threads: src/error_stack.c, and the macros that fill
    them: src/cconfigspace_internal.h 39-147.

    Messages are the bytes vsnprintf writes (its failures are not modelled).
    File and function names are opaque.  What destroying an object of another
    type does is in LifeModel.v; here it is only freed.  Each allocation takes
    its outcome from [s_mem]; when the list is empty memory is available. *)
From Coq Require Import ZArith List Bool.
From Verif Require Import Base.
Import ListNotations.
Open Scope Z_scope.

Definition handle := nat.
Definition thread := nat.

(** ccs_error_stack_elem_t: include/cconfigspace/error_stack.h 40-47. *)
Record elem := mkElem { el_file : Z; el_line : Z; el_func : Z }.

(** struct _ccs_error_stack_data_s: src/error_stack_internal.h 5-9; [k_n] is the
    capacity utarray believes to have, [k_room] what was allocated. *)
Record stack := mkStack {
  k_code : Z; k_msg : list Z; k_elems : list elem; k_n : nat; k_room : nat }.

(** An object: its count, and its contents when it is an error stack. *)
Record object := mkObject { b_ref : Z; b_stack : option stack }.

(** [s_current]: the variable ccs_error_stack of each thread (error_stack.c 14). *)
Record st := mkSt {
  s_objs : list (option object); s_current : list (option handle); s_mem : list bool }.

Definition start (threads : nat) (mem : list bool) : st := mkSt [] (repeat None threads) mem.

Fixpoint set_nth {A} (l : list A) (i : nat) (x : A) : list A :=
  match l, i with
  | [], _ => []
  | _ :: l', O => x :: l'
  | y :: l', S i' => y :: set_nth l' i' x
  end.

Definition put (s : st) (h : handle) (x : option object) : st :=
  mkSt (set_nth (s_objs s) h x) (s_current s) (s_mem s).
Definition with_current (s : st) (t : thread) (x : option handle) : st :=
  mkSt (s_objs s) (set_nth (s_current s) t x) (s_mem s).
Definition get_current (s : st) (t : thread) : option handle :=
  match nth_error (s_current s) t with Some x => x | None => None end.

Definition deref (s : st) (h : handle) : res object :=
  match nth_error (s_objs s) h with Some (Some o) => Ok o | _ => UB UBBounds end.

(** malloc, calloc, realloc: is memory obtained? *)
Definition alloc (s : st) : bool * st :=
  match s_mem s with
  | [] => (true, s)
  | b :: m => (b, mkSt (s_objs s) (s_current s) m)
  end.

Definition INT32_MAX := 2 ^ 31 - 1.

(** ccs_retain_object, ccs_release_object on a valid handle: src/cconfigspace.c
    44-72. *)
Definition retain (s : st) (h : handle) : res (Z * st) :=
  do o <- deref s h;
  if b_ref o <=? 0 then Ok (ERR_INVALID_OBJECT, s)
  else if b_ref o =? INT32_MAX then UB UBOverflow
  else Ok (CCS_RESULT_SUCCESS, put s h (Some (mkObject (b_ref o + 1) (b_stack o)))).
Definition release (s : st) (h : handle) : res (Z * st) :=
  do o <- deref s h;
  if b_ref o <=? 0 then Ok (ERR_INVALID_OBJECT, s)
  else if b_ref o - 1 =? 0 then Ok (CCS_RESULT_SUCCESS, put s h None)
  else Ok (CCS_RESULT_SUCCESS, put s h (Some (mkObject (b_ref o - 1) (b_stack o)))).

(** ccs_get_thread_error: error_stack.c 16-22. *)
Definition get_thread_error (s : st) (t : thread) : option handle * st :=
  (get_current s t, with_current s t None).

(** _ccs_clear_thread_error: error_stack.c 24-30. *)
Definition clear_thread_error (s : st) (t : thread) : res st :=
  match get_current s t with
  | Some h => do r <- release s h; Ok (with_current (snd r) t None)
  | None => Ok (with_current s t None)
  end.

(** CCS_CHECK_ERROR_STACK: error_stack.c 5-12 ([data] is never NULL). *)
Definition check_stack (s : st) (x : option handle) : res (option (handle * Z * stack)) :=
  match x with
  | None => Ok None
  | Some h => do o <- deref s h;
              Ok (match b_stack o with Some k => Some (h, b_ref o, k) | None => None end)
  end.

(** ccs_set_thread_error: error_stack.c 38-46. *)
Definition set_thread_error (s : st) (t : thread) (x : option handle) : res (Z * st) :=
  do k <- check_stack s x;
  match k with
  | None => Ok (ERR_INVALID_OBJECT, s)
  | Some _ =>
      do s1 <- match get_current s t with
               | Some h => do r <- release s h; Ok (snd r)
               | None => Ok s
               end;
      Ok (CCS_RESULT_SUCCESS, with_current s1 t x)
  end.

(** _ccs_create_error_stack: error_stack.c 73-115. *)
Definition create_stack (s : st) (code : Z) (msg : option (list Z)) : Z * option handle * st :=
  let (b, s1) := alloc s in
  if b then
    let (b2, s2) := alloc s1 in
    if b2 then
      (CCS_RESULT_SUCCESS, Some (length (s_objs s2)),
       mkSt (s_objs s2 ++ [Some (mkObject 1 (Some (mkStack code (match msg with Some m => m | None => [] end) [] 0 0)))])
            (s_current s2) (s_mem s2))
    else (ERR_OUT_OF_MEMORY, None, s2)
  else (ERR_OUT_OF_MEMORY, None, s1).

(** ccs_create_thread_error: error_stack.c 132-142. *)
Definition create_thread_error (s : st) (t : thread) (code : Z) (msg : option (list Z))
  : res (Z * option handle * st) :=
  do s1 <- clear_thread_error s t;
  let '(c, h, s2) := create_stack s1 code msg in
  Ok (c, h, match h with Some _ => with_current s2 t h | None => s2 end).

(** utarray_push_back: src/utarray.h 92-110: the capacity is doubled until it is
    large enough, then the memory is obtained. *)
Definition grown (n : nat) : nat := match n with O => 8 | _ => 2 * n end%nat.
Definition push (s : st) (x : option handle) (e : elem) : res (Z * st) :=
  do k <- check_stack s x;
  match k with
  | None => Ok (ERR_INVALID_OBJECT, s)
  | Some (h, r, k) =>
      let full := (k_n k <? length (k_elems k) + 1)%nat in
      let n := if full then grown (k_n k) else k_n k in
      let (b, s1) := if full then alloc s else (true, s) in
      if b then
        let room := if full then n else k_room k in
        if (length (k_elems k) <? room)%nat then
          Ok (CCS_RESULT_SUCCESS,
              put s1 h (Some (mkObject r (Some (mkStack (k_code k) (k_msg k) (k_elems k ++ [e]) n room)))))
        else UB UBBounds
      else Ok (ERR_OUT_OF_MEMORY,
               put s1 h (Some (mkObject r (Some (mkStack (k_code k) (k_msg k) (k_elems k) n (k_room k))))))
  end.

(** ccs_thread_error_stack_push: error_stack.c 172-176. *)
Definition thread_push (s : st) (t : thread) (e : elem) : res (Z * st) := push s (get_current s t) e.

(** What a call delivers besides its code. *)
Inductive value :=
| VNone
| VStack (x : option handle)
| VElems (l : list elem)
| VMessage (m : list Z)
| VCode (c : Z).

(** ccs_error_stack_get_elems, _get_message, _get_code: error_stack.c 178-218;
    [null]: the address for the result is NULL. *)
Definition getter (f : stack -> value) (s : st) (x : option handle) (null : bool)
  : res (Z * value) :=
  do k <- check_stack s x;
  match k with
  | None => Ok (ERR_INVALID_OBJECT, VNone)
  | Some (_, _, k) => if null then Ok (ERR_INVALID_VALUE, VNone) else Ok (CCS_RESULT_SUCCESS, f k)
  end.

Inductive op :=
| OGet (t : thread)
| OClear (t : thread)
| OSet (t : thread) (x : option handle)
| OThreadError (t : thread) (code : Z) (msg : option (list Z))
| OThreadPush (t : thread) (e : elem)
| OCreate (code : Z) (msg : option (list Z))
| OPush (x : option handle) (e : elem)
| OElems (x : option handle) (null : bool)
| OMessage (x : option handle) (null : bool)
| OCode (x : option handle) (null : bool)
| OOther                              (* an object of another type is made *)
| ORetain (h : handle)
| ORelease (h : handle).

(** The code, the object made, the value delivered, the state. *)
Definition result := (Z * option handle * value * st)%type.

Definition step (o : op) (s : st) : res result :=
  match o with
  | OGet t => let (x, s1) := get_thread_error s t in Ok (CCS_RESULT_SUCCESS, None, VStack x, s1)
  | OClear t => do s1 <- clear_thread_error s t; Ok (CCS_RESULT_SUCCESS, None, VNone, s1)
  | OSet t x => do r <- set_thread_error s t x; Ok (fst r, None, VNone, snd r)
  | OThreadError t c m =>
      do r <- create_thread_error s t c m;
      let '(code, h, s1) := r in Ok (code, h, VNone, s1)
  | OThreadPush t e => do r <- thread_push s t e; Ok (fst r, None, VNone, snd r)
  | OCreate c m => let '(code, h, s1) := create_stack s c m in Ok (code, h, VNone, s1)
  | OPush x e => do r <- push s x e; Ok (fst r, None, VNone, snd r)
  | OElems x null =>
      do r <- getter (fun k => VElems (k_elems k)) s x null; Ok (fst r, None, snd r, s)
  | OMessage x null =>
      do r <- getter (fun k => VMessage (k_msg k)) s x null; Ok (fst r, None, snd r, s)
  | OCode x null =>
      do r <- getter (fun k => VCode (k_code k)) s x null; Ok (fst r, None, snd r, s)
  | OOther =>
      Ok (CCS_RESULT_SUCCESS, Some (length (s_objs s)), VNone,
          mkSt (s_objs s ++ [Some (mkObject 1 None)]) (s_current s) (s_mem s))
  | ORetain h => do r <- retain s h; Ok (fst r, None, VNone, snd r)
  | ORelease h => do r <- release s h; Ok (fst r, None, VNone, snd r)
  end.

(** ** The functions of the library, as far as errors go *)

Inductive lib :=
| LReturn (c : Z)                                (* return a code that comes from elsewhere *)
| LRaise (c : Z) (m : list Z) (l : elem)         (* CCS_RAISE, CCS_REFUTE, CCS_CHECK_... *)
| LRaiseGoto (c : Z) (m : list Z) (l : elem) (clean : lib)    (* CCS_RAISE_ERR_GOTO *)
| LValidate (l : elem) (sub rest : lib)          (* CCS_VALIDATE *)
| LValidateGoto (l : elem) (sub clean rest : lib) (* CCS_VALIDATE_ERR_GOTO *)
| LIgnore (sub rest : lib).                      (* a call whose result is not looked at *)

(** CCS_CREATE_ERROR: cconfigspace_internal.h 50-60. *)
Definition create_error (s : st) (t : thread) (c : Z) (m : list Z) (l : elem) : res st :=
  do r <- create_thread_error s t c (Some m);
  do p <- thread_push (snd r) t l;
  Ok (snd p).

(** cconfigspace_internal.h 62-147. *)
Fixpoint exec (t : thread) (a : lib) (s : st) : res (Z * st) :=
  match a with
  | LReturn c => Ok (c, s)
  | LRaise c m l => do s1 <- create_error s t c m l; Ok (c, s1)
  | LRaiseGoto c m l clean =>
      do s1 <- create_error s t c m l;
      do r <- exec t clean s1;
      Ok (c, snd r)
  | LValidate l sub rest =>
      do r <- exec t sub s;
      if fst r <? CCS_RESULT_SUCCESS then
        do p <- thread_push (snd r) t l; Ok (fst r, snd p)
      else exec t rest (snd r)
  | LValidateGoto l sub clean rest =>
      do r <- exec t sub s;
      if fst r <? CCS_RESULT_SUCCESS then
        do p <- thread_push (snd r) t l;
        do q <- exec t clean (snd p);
        Ok (fst r, snd q)
      else exec t rest (snd r)
  | LIgnore sub rest => do r <- exec t sub s; exec t rest (snd r)
  end.
