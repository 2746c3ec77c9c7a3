(** Growable arrays: the vendored src/utarray.h, on memory made of blocks of bytes.

    A pointer is a block and an offset in it, NULL is [None].  A byte that was never
    written is [None].  Reading or writing outside of a block, or in a block that was
    freed, is undefined.  What malloc, realloc and qsort answer is given with every
    operation: an address (0 when there is no memory), the order the elements get.
    Simplifications: all the UT_icd of the library have NULL for init, copy and dtor
    (src/cconfigspace.c 94, src/configuration_space.c 306-320, src/error_stack.c 59,
    src/expression.c 1713, src/features_space.c 76, src/objective_space.c 192-204,
    src/*tuner_random.c), only that case is modelled; the element given to push_back is
    its bytes; the UT_array are in a memory of their own. *)
From Coq Require Import ZArith List Bool.
From Verif Require Import Base.
Import ListNotations.
Open Scope Z_scope.

Definition cell : Type := option Z.
Definition ptr : Type := option (Z * Z).

(** Storing at one address *)
Definition put {A : Type} (f : Z -> A) (a : Z) (v : A) : Z -> A :=
  fun x => if x =? a then v else f x.

(** unsigned and size_t arithmetic *)
Definition u32 (x : Z) : Z := x mod 2 ^ 32.
Definition u64 (x : Z) : Z := x mod 2 ^ 64.

(** UT_array: src/utarray.h 54-58, and icd.sz *)
Record arr : Type := mkArr { a_i : Z; a_n : Z; a_sz : Z; a_d : Z }.
Record state : Type := mkState { arrs : Z -> option arr; mem : Z -> option (list cell) }.

Definition get (st : state) (a : Z) : res arr :=
  match arrs st a with Some r => Ok r | None => UB UBBounds end.
Definition set (st : state) (a : Z) (r : arr) : state := mkState (put (arrs st) a (Some r)) (mem st).

(** Reading [n] bytes, writing bytes *)
Definition load (st : state) (p : ptr) (n : Z) : res (list cell) :=
  match p with
  | None => UB UBBounds
  | Some (b, o) =>
      match mem st b with
      | None => UB UBBounds
      | Some cs =>
          if (0 <=? o) && (o + n <=? Z.of_nat (length cs))
          then Ok (firstn (Z.to_nat n) (skipn (Z.to_nat o) cs)) else UB UBBounds
      end
  end.
Definition store (st : state) (p : ptr) (v : list cell) : res state :=
  match p with
  | None => UB UBBounds
  | Some (b, o) =>
      match mem st b with
      | None => UB UBBounds
      | Some cs =>
          if (0 <=? o) && (o + Z.of_nat (length v) <=? Z.of_nat (length cs))
          then Ok (mkState (arrs st)
                     (put (mem st) b
                        (Some (firstn (Z.to_nat o) cs ++ v
                               ++ skipn (Z.to_nat o + length v) cs))))
          else UB UBBounds
      end
  end.

(** realloc(old, size), answering [ans]: the bytes of the old block are kept *)
Definition realloc (st : state) (old size ans : Z) : option state :=
  if ans =? 0 then None
  else
    let bytes := match mem st old with Some cs => cs | None => [] end in
    Some (mkState (arrs st)
            (put (put (mem st) old None) ans
               (Some (firstn (Z.to_nat size) (bytes ++ repeat None (Z.to_nat size)))))).

(** utarray_new and utarray_init: src/utarray.h 60-63, 77-83.  [ans] is the address
    malloc answers; true: utarray_oom() *)
Definition array_new (st : state) (sz ans : Z) : bool * state :=
  if ans =? 0 then (true, st) else (false, set st ans (mkArr 0 0 sz 0)).

(** utarray_done and utarray_free: src/utarray.h 65-75, 85-88 *)
Definition array_free (st : state) (a : Z) : res state :=
  do r <- get st a;
  Ok (mkState (put (arrs st) a None)
        (if a_n r =? 0 then mem st
         else if a_d r =? 0 then mem st else put (mem st) (a_d r) None)).

(** The loop of utarray_reserve: src/utarray.h 93 *)
Fixpoint grow (fuel : nat) (need n : Z) : res Z :=
  match fuel with
  | O => UB UBDiverge
  | S fuel' =>
      if n <? need then grow fuel' need (if n =? 0 then 8 else u32 (2 * n)) else Ok n
  end.
(** Thirty turns are enough when the loop ends at all *)
Definition turns : nat := 40%nat.

(** utarray_reserve: src/utarray.h 90-100.  When there is no memory the number of slots
    has already been changed *)
Definition reserve (st : state) (a by_ ans : Z) : res (bool * state) :=
  do r <- get st a;
  if u32 (a_i r + by_) >? a_n r then
    do n <- grow turns (u32 (a_i r + by_)) (a_n r);
    match realloc st (a_d r) (u64 (n * a_sz r)) ans with
    | None => Ok (true, set st a (mkArr (a_i r) n (a_sz r) (a_d r)))
    | Some st' => Ok (false, set st' a (mkArr (a_i r) n (a_sz r) ans))
    end
  else Ok (false, st).

(** _utarray_eltptr: src/utarray.h 125 *)
Definition slot (r : arr) (j : Z) : ptr :=
  if a_d r =? 0 then None else Some (a_d r, u64 (a_sz r * j)).

(** utarray_push_back: src/utarray.h 102-106 *)
Definition push_back (st : state) (a : Z) (v : list cell) (ans : Z) : res (bool * state) :=
  do (oom, st) <- reserve st a 1 ans;
  if oom then Ok (true, st)
  else
    do r <- get st a;
    do st <- store (set st a (mkArr (u32 (a_i r + 1)) (a_n r) (a_sz r) (a_d r)))
               (slot r (a_i r)) v;
    Ok (false, st).

(** utarray_pop_back: src/utarray.h 108-111 *)
Definition pop_back (st : state) (a : Z) : res state :=
  do r <- get st a;
  Ok (set st a (mkArr (u32 (a_i r - 1)) (a_n r) (a_sz r) (a_d r))).

(** utarray_clear: src/utarray.h 209-219 *)
Definition array_clear (st : state) (a : Z) : res state :=
  do r <- get st a;
  if a_i r >? 0 then Ok (set st a (mkArr 0 (a_n r) (a_sz r) (a_d r))) else Ok st.

(** utarray_resize: src/utarray.h 163-182 *)
Definition array_resize (st : state) (a num ans : Z) : res (bool * state) :=
  do r <- get st a;
  do (oom, st) <-
    (if a_i r <? u32 num then
       do (oom, st) <- reserve st a (num - a_i r) ans;
       if oom then Ok (true, st)
       else
         do r <- get st a;
         do st <- store st (slot r (a_i r))
                    (repeat (Some 0) (Z.to_nat (u64 (a_sz r * (num - a_i r)))));
         Ok (false, st)
     else Ok (false, st));
  if oom then Ok (true, st)
  else
    do r <- get st a;
    Ok (false, set st a (mkArr (u32 num) (a_n r) (a_sz r) (a_d r))).

(** utarray_sort: src/utarray.h 221-223.  qsort writes the elements in the order [ord];
    its first argument must not be NULL, even without elements *)
Definition array_sort (st : state) (a : Z) (ord : list (list cell)) : res state :=
  do r <- get st a;
  do _ <- load st (slot r 0) (a_i r * a_sz r);
  store st (slot r 0) (concat ord).

(** utarray_len, utarray_eltptr, utarray_front, utarray_back, utarray_eltidx,
    utarray_next, utarray_prev: src/utarray.h 122, 124, 227-231 *)
Definition array_len (st : state) (a : Z) : res Z := do r <- get st a; Ok (a_i r).
Definition eltptr (st : state) (a j : Z) : res ptr :=
  do r <- get st a; Ok (if j <? a_i r then slot r j else None).
Definition front (st : state) (a : Z) : res ptr :=
  do r <- get st a; Ok (if a_i r =? 0 then None else slot r 0).
Definition back (st : state) (a : Z) : res ptr :=
  do r <- get st a; Ok (if a_i r =? 0 then None else slot r (u32 (a_i r - 1))).
(** the difference of two pointers, which must be in the same block, is converted to
    size_t for the division *)
Definition eltidx (r : arr) (e : Z * Z) : res Z :=
  if fst e =? a_d r then
    if a_sz r =? 0 then UB UBDivZero else Ok (u64 (snd e) / a_sz r)
  else UB UBBounds.
Definition next (st : state) (a : Z) (e : ptr) : res ptr :=
  match e with
  | None => front st a
  | Some e =>
      do r <- get st a;
      do k <- eltidx r e;
      Ok (if a_i r =? u64 (k + 1) then None else slot r (u64 (k + 1)))
  end.
Definition prev (st : state) (a : Z) (e : ptr) : res ptr :=
  match e with
  | None => back st a
  | Some e =>
      do r <- get st a;
      do k <- eltidx r e;
      Ok (if k =? 0 then None else slot r (u64 (k - 1)))
  end.

(** The loop  e = NULL; while ((e = utarray_next(a, e))) ...  of the library, reading
    every element (for instance src/configuration_space.c 75-79) *)
Fixpoint each (fuel : nat) (step : state -> Z -> ptr -> res ptr) (st : state) (a sz : Z)
  (e : ptr) : res (list (list cell)) :=
  match fuel with
  | O => UB UBFuel
  | S fuel' =>
      do e' <- step st a e;
      match e' with
      | None => Ok []
      | Some _ =>
          do v <- load st e' sz;
          do l <- each fuel' step st a sz e';
          Ok (v :: l)
      end
  end.

(** size_t in memory, little endian *)
Fixpoint word (cs : list cell) : res Z :=
  match cs with
  | [] => Ok 0
  | None :: _ => UB UBUninit
  | Some b :: r => do x <- word r; Ok (b + 256 * x)
  end.
Definition load_size (st : state) (p : ptr) : res Z := do cs <- load st p 8; word cs.

(** The loop of _uniq_size_t_array: src/configuration_space.c 1143-1149 *)
Fixpoint uniq_loop (fuel : nat) (st : state) (a : Z) (p p2 : ptr) (count : Z)
  : res (Z * state) :=
  match fuel with
  | O => UB UBFuel
  | S fuel' =>
      do p <- next st a p;
      match p with
      | None => Ok (count, st)
      | Some _ =>
          do x <- load_size st p;
          do y <- load_size st p2;
          if x =? y then uniq_loop fuel' st a p p2 count
          else
            do p2 <- next st a p2;
            do v <- load st p 8;
            do st <- store st p2 v;
            uniq_loop fuel' st a p p2 (u64 (count + 1))
      end
  end.
(** _uniq_size_t_array: src/configuration_space.c 1132-1151 *)
Definition array_uniq (fuel : nat) (st : state) (a : Z) (ord : list (list cell)) (ans : Z)
  : res (bool * state) :=
  do count <- array_len st a;
  if count =? 0 then Ok (false, st)
  else
    do st <- array_sort st a ord;
    do p <- front st a;
    do (n, st) <- uniq_loop fuel st a p p 1;
    array_resize st a n ans.

(** What an application does with arrays, and what it is told *)
Inductive op : Type :=
| New (sz ans : Z)
| Free (a : Z)
| Push (a : Z) (v : list cell) (ans : Z)
| Pop (a : Z)
| Clear (a : Z)
| Resize (a num ans : Z)
| Sort (a : Z) (ord : list (list cell))
| Uniq (a : Z) (ord : list (list cell)) (ans : Z)
| Len (a : Z)
| Elt (a j : Z)
| Front (a : Z)
| Back (a : Z)
| Next (a : Z) (e : ptr)
| Prev (a : Z) (e : ptr)
| Each (a sz : Z) (forwards : bool)
| Read (p : ptr) (n : Z)
| Write (p : ptr) (v : list cell).
Inductive out : Type :=
| Nothing
| Did (oom : bool)
| Number (n : Z)
| Place (p : ptr)
| Bytes (v : list cell)
| Elements (l : list (list cell)).

Definition do_op (fuel : nat) (st : state) (o : op) : res (out * state) :=
  match o with
  | New sz ans => let (oom, st) := array_new st sz ans in Ok (Did oom, st)
  | Free a => do st <- array_free st a; Ok (Nothing, st)
  | Push a v ans => do (oom, st) <- push_back st a v ans; Ok (Did oom, st)
  | Pop a => do st <- pop_back st a; Ok (Nothing, st)
  | Clear a => do st <- array_clear st a; Ok (Nothing, st)
  | Resize a num ans => do (oom, st) <- array_resize st a num ans; Ok (Did oom, st)
  | Sort a ord => do st <- array_sort st a ord; Ok (Nothing, st)
  | Uniq a ord ans => do (oom, st) <- array_uniq fuel st a ord ans; Ok (Did oom, st)
  | Len a => do n <- array_len st a; Ok (Number n, st)
  | Elt a j => do p <- eltptr st a j; Ok (Place p, st)
  | Front a => do p <- front st a; Ok (Place p, st)
  | Back a => do p <- back st a; Ok (Place p, st)
  | Next a e => do p <- next st a e; Ok (Place p, st)
  | Prev a e => do p <- prev st a e; Ok (Place p, st)
  | Each a sz fw =>
      do l <- each fuel (if fw then next else prev) st a sz None; Ok (Elements l, st)
  | Read p n => do v <- load st p n; Ok (Bytes v, st)
  | Write p v => do st <- store st p v; Ok (Nothing, st)
  end.

(** An application: what it does next depends on what it was told *)
Inductive client : Type :=
| Stop
| Do (o : op) (k : out -> client).
Fixpoint run (fuel : nat) (st : state) (p : client) : res (list out) :=
  match p with
  | Stop => Ok []
  | Do o k =>
      do (x, st) <- do_op fuel st o;
      do l <- run fuel st (k x);
      Ok (x :: l)
  end.

Definition nothing : state := mkState (fun _ => None) (fun _ => None).
