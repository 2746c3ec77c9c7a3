(** Doubly linked lists: the DL_ macros of the vendored src/utlist.h, on the memory of the
    application; and the topological sort that uses them as a queue.

    Every field is a function of the address of its element, [live] tells which
    addresses hold an element, [head] is the variable given as head.  Using a field of an
    address that is not live is undefined; so is a failing assertion.
    Simplifications: in _topological_sort the arrays of parents and children of the
    parameters are lists (C82), and the array of the sorted indexes has memory enough. *)
From Coq Require Import ZArith List Bool.
From Verif Require Import Base.
From Verif Require UthashModel.
Import ListNotations.
Open Scope Z_scope.

Notation put := UthashModel.put.

Record state : Type := mkState {
  live : Z -> bool; f_prev : Z -> Z; f_next : Z -> Z; head : Z }.

Definition rd (st : state) (f : state -> Z -> Z) (a : Z) : res Z :=
  if live st a then Ok (f st a) else UB UBBounds.
Definition set_prev (st : state) (a v : Z) : res state :=
  if live st a then Ok (mkState (live st) (put (f_prev st) a v) (f_next st) (head st))
  else UB UBBounds.
Definition set_next (st : state) (a v : Z) : res state :=
  if live st a then Ok (mkState (live st) (f_prev st) (put (f_next st) a v) (head st))
  else UB UBBounds.
Definition set_head (st : state) (v : Z) : state :=
  mkState (live st) (f_prev st) (f_next st) v.
Definition assert (b : bool) : res unit := if b then Ok tt else UB UBBounds.

(** DL_APPEND: src/utlist.h 641-653 *)
Definition dl_append (st : state) (a : Z) : res state :=
  if head st =? 0 then
    let st := set_head st a in
    do st <- set_prev st (head st) (head st);
    set_next st (head st) 0
  else
    do last <- rd st f_prev (head st);
    do st <- set_prev st a last;
    do last <- rd st f_prev (head st);
    do st <- set_next st last a;
    do st <- set_prev st (head st) a;
    set_next st a 0.

(** DL_DELETE: src/utlist.h 708-726.  With [del] the head variable itself
    (src/configuration_space.c 1195) the head is not read after it was stored *)
Definition dl_delete (st : state) (del : Z) : res state :=
  do _ <- assert (negb (head st =? 0));
  do p <- rd st f_prev del;
  do _ <- assert (negb (p =? 0));
  if p =? del then Ok (set_head st 0)
  else if del =? head st then
    do n <- rd st f_next del;
    do _ <- assert (negb (n =? 0));
    do st <- set_prev st n p;
    do n <- rd st f_next del;
    Ok (set_head st n)
  else
    do n <- rd st f_next del;
    do st <- set_next st p n;
    do n <- rd st f_next del;
    do p <- rd st f_prev del;
    if n =? 0 then set_prev st (head st) p else set_prev st n p.

(** DL_FOREACH: src/utlist.h 740-741, from the element [el] *)
Fixpoint foreach (fuel : nat) (st : state) (el : Z) : res (list Z) :=
  match fuel with
  | O => UB UBFuel
  | S fuel' =>
      if el =? 0 then Ok []
      else
        do _ <- rd st f_next el;
        do n <- rd st f_next el;
        do l <- foreach fuel' st n;
        Ok (el :: l)
  end.
(** DL_COUNT: src/utlist.h 731-735 *)
Definition dl_count (fuel : nat) (st : state) : res Z :=
  do l <- foreach fuel st (head st); Ok (Z.of_nat (length l)).

(** DL_FOREACH_SAFE: src/utlist.h 747-748, with a body that deletes the element and frees
    it (src/configuration_space.c 47-55) *)
Definition set_live (st : state) (a : Z) (b : bool) : state :=
  mkState (put (live st) a b) (f_prev st) (f_next st) (head st).
Fixpoint drain (fuel : nat) (st : state) (el : Z) : res (list Z * state) :=
  match fuel with
  | O => UB UBFuel
  | S fuel' =>
      if el =? 0 then Ok ([], st)
      else
        do tmp <- rd st f_next el;
        do st <- dl_delete st el;
        do (l, st) <- drain fuel' (set_live st el false) tmp;
        Ok (el :: l, st)
  end.

(** What an application does with a list, and what it is told *)
Inductive op : Type :=
| New (a p n : Z)
| Free (a : Z)
| Append (a : Z)
| Delete (a : Z)
| Head
| Each
| Count
| Drain.
Inductive out : Type :=
| Nothing
| At (a : Z)
| Seen (l : list Z)
| Number (n : Z).
Definition do_op (fuel : nat) (st : state) (o : op) : res (out * state) :=
  match o with
  | New a p n =>
      Ok (Nothing, mkState (put (live st) a true) (put (f_prev st) a p) (put (f_next st) a n) (head st))
  | Free a => Ok (Nothing, set_live st a false)
  | Append a => do st <- dl_append st a; Ok (Nothing, st)
  | Delete a => do st <- dl_delete st a; Ok (Nothing, st)
  | Head => Ok (At (head st), st)
  | Each => do l <- foreach fuel st (head st); Ok (Seen l, st)
  | Count => do n <- dl_count fuel st; Ok (Number n, st)
  | Drain => do (l, st) <- drain fuel st (head st); Ok (Seen l, st)
  end.
Inductive client : Type :=
| Stop
| Do (o : op) (k : out -> client).
Fixpoint run (fuel : nat) (st : state) (p : client) : res (list out) :=
  match p with
  | Stop => Ok []
  | Do o k =>
      do (x, st) <- do_op fuel st o;
      do l <- run fuel st (k x);
      Ok (x :: l)
  end.
Definition nothing : state := mkState (fun _ => false) (fun _ => 0) (fun _ => 0) 0.

(** ** The topological sort *)
(** struct _parameter_list_s: src/configuration_space.c 1154-1159; the fields in_edges and
    index are functions of the address too *)
Record tstate : Type := mkT { t_q : state; t_edges : Z -> Z; t_index : Z -> Z }.
Definition elem (base : Z) (i : nat) : Z := base + 32 * Z.of_nat i.
Definition has (t : tstate) (a : Z) : res unit :=
  if live (t_q t) a then Ok tt else UB UBBounds.
Definition enqueue (t : tstate) (a : Z) : res tstate :=
  do q <- dl_append (t_q t) a; Ok (mkT q (t_edges t) (t_index t)).

(** 1181-1191 *)
Fixpoint init_loop (base : Z) (i : nat) (parents : list (list nat)) (t : tstate) : res tstate :=
  match parents with
  | [] => Ok t
  | ps :: rest =>
      let a := elem base i in
      do _ <- has t a;
      let n := Z.of_nat (length ps) in
      let t := mkT (t_q t) (put (t_edges t) a n) (put (t_index t) a (Z.of_nat i)) in
      do t <- (if n =? 0 then enqueue t a else Ok t);
      init_loop base (S i) rest t
  end.
(** 1198-1205 *)
Fixpoint relax_loop (base : Z) (cs : list nat) (t : tstate) : res tstate :=
  match cs with
  | [] => Ok t
  | c :: rest =>
      let a := elem base c in
      do _ <- has t a;
      let d := (t_edges t a - 1) mod 2 ^ 64 in
      let t := mkT (t_q t) (put (t_edges t) a d) (t_index t) in
      do t <- (if d =? 0 then enqueue t a else Ok t);
      relax_loop base rest t
  end.
(** 1193-1209; the wrapper of an index that is not in the array is NULL *)
Fixpoint main_loop (fuel : nat) (base : Z) (children : list (list nat)) (t : tstate)
  (sorted : list nat) : res (list nat * tstate) :=
  match fuel with
  | O => UB UBFuel
  | S fuel' =>
      let e := head (t_q t) in
      if e =? 0 then Ok (sorted, t)
      else
        do q <- dl_delete (t_q t) e;
        let t := mkT q (t_edges t) (t_index t) in
        do _ <- has t e;
        match nth_error children (Z.to_nat (t_index t e)) with
        | None => UB UBBounds
        | Some cs =>
            do t <- relax_loop base cs t;
            do _ <- has t e;
            main_loop fuel' base children t (sorted ++ [Z.to_nat (t_index t e)])
        end
  end.
(** calloc and free of the elements *)
Fixpoint allot (base : Z) (n : nat) (t : tstate) : tstate :=
  match n with
  | O => t
  | S n' =>
      let t := allot base n' t in
      let a := elem base n' in
      mkT (mkState (put (live (t_q t)) a true) (put (f_prev (t_q t)) a 0) (put (f_next (t_q t)) a 0)
             (head (t_q t)))
        (put (t_edges t) a 0) (put (t_index t) a 0)
  end.
Fixpoint dispose (base : Z) (n : nat) (t : tstate) : tstate :=
  match n with
  | O => t
  | S n' =>
      let t := dispose base n' t in
      mkT (set_live (t_q t) (elem base n') false) (t_edges t) (t_index t)
  end.
(** _topological_sort: 1169-1213; [base] is the address calloc gives.  The sorted indexes,
    and the error when some are missing *)
Definition topological (fuel : nat) (base : Z) (parents children : list (list nat)) (t : tstate)
  : res (list nat * Z * tstate) :=
  if base =? 0 then Ok ([], ERR_OUT_OF_MEMORY, t)
  else
    let n := length parents in
    let t := allot base n t in
    let t := mkT (set_head (t_q t) 0) (t_edges t) (t_index t) in
    do t <- init_loop base 0 parents t;
    do (sorted, t) <- main_loop fuel base children t [];
    let t := dispose base n t in
    Ok (sorted, if (length sorted <? n)%nat then ERR_INVALID_GRAPH else CCS_RESULT_SUCCESS, t).
