(** Hash tables: the vendored src/uthash.h, on the memory of the application.

    The macros work on elements of the application, each of which embeds a
    UT_hash_handle.  Every field of the handles is a function of the address of
    its element, so that a store to a field is an update of one function at one
    address; [live] tells which addresses hold an element.  Reading or writing a
    field of an address that is not live is undefined, and so is using a table
    that was freed.
    Simplifications: a handle is named by the address of its element, so
    ELMT_FROM_HH and HH_FROM_ELMT (137, 139) are the identity; the key pointer is
    the key it points to (the library never changes a key while it is stored);
    keylen is the value given; HASH_BLOOM, HASH_DEBUG and HASH_EMIT_KEYS are not
    defined in the library. *)
From Coq Require Import ZArith List Bool.
From Verif Require Import Base.
Import ListNotations.
Open Scope Z_scope.

(** Storing into one field of one element, or one table *)
Definition put {A : Type} (f : Z -> A) (a : Z) (v : A) : Z -> A :=
  fun x => if x =? a then v else f x.

(** unsigned arithmetic: 32 bits *)
Definition u32 (x : Z) : Z := x mod 2 ^ 32.

(** struct UT_hash_bucket: src/uthash.h 1072-1089 *)
Record bucket : Type := mkBkt { b_head : Z; b_count : Z; b_mult : Z }.

(** struct UT_hash_table: src/uthash.h 1096-1128; [t_buckets] is the allocated
    array, [t_num] num_buckets, [t_log] log2_num_buckets *)
Record table : Type := mkTab {
  t_buckets : list bucket; t_num : Z; t_log : Z; t_items : Z; t_tail : Z;
  t_ideal : Z; t_nonideal : Z; t_ineff : Z; t_noexpand : Z }.

Section Uthash.
  Variable K : Type.
  (** HASH_FUNCTION and HASH_KEYCMP(a, b, len) == 0: src/uthash.h 91-96, redefined
      in src/datum_uthash.h 8-12 *)
  Variable hash : K -> Z -> Z.
  Variable same : K -> K -> Z -> bool.

  (** struct UT_hash_handle: src/uthash.h 1130-1139, one function per field; [tabs]
      are the tables in memory and [head] the variable given as head *)
  Record state : Type := mkState {
    live : Z -> bool;
    f_tbl : Z -> Z; f_prev : Z -> Z; f_next : Z -> Z;
    f_hprev : Z -> Z; f_hnext : Z -> Z;
    f_key : Z -> K; f_klen : Z -> Z; f_hashv : Z -> Z;
    tabs : Z -> option table; head : Z }.

  (** Loads and stores *)
  Definition rd {A : Type} (st : state) (f : state -> Z -> A) (a : Z) : res A :=
    if live st a then Ok (f st a) else UB UBBounds.
  Definition wr (st : state) (a : Z) (st' : state) : res state :=
    if live st a then Ok st' else UB UBBounds.
  Definition set_tbl (st : state) (a v : Z) : res state :=
    wr st a (mkState (live st) (put (f_tbl st) a v) (f_prev st) (f_next st) (f_hprev st)
               (f_hnext st) (f_key st) (f_klen st) (f_hashv st) (tabs st) (head st)).
  Definition set_prev (st : state) (a v : Z) : res state :=
    wr st a (mkState (live st) (f_tbl st) (put (f_prev st) a v) (f_next st) (f_hprev st)
               (f_hnext st) (f_key st) (f_klen st) (f_hashv st) (tabs st) (head st)).
  Definition set_next (st : state) (a v : Z) : res state :=
    wr st a (mkState (live st) (f_tbl st) (f_prev st) (put (f_next st) a v) (f_hprev st)
               (f_hnext st) (f_key st) (f_klen st) (f_hashv st) (tabs st) (head st)).
  Definition set_hprev (st : state) (a v : Z) : res state :=
    wr st a (mkState (live st) (f_tbl st) (f_prev st) (f_next st) (put (f_hprev st) a v)
               (f_hnext st) (f_key st) (f_klen st) (f_hashv st) (tabs st) (head st)).
  Definition set_hnext (st : state) (a v : Z) : res state :=
    wr st a (mkState (live st) (f_tbl st) (f_prev st) (f_next st) (f_hprev st)
               (put (f_hnext st) a v) (f_key st) (f_klen st) (f_hashv st) (tabs st) (head st)).
  Definition set_key (st : state) (a : Z) (k : K) (len hv : Z) : res state :=
    wr st a (mkState (live st) (f_tbl st) (f_prev st) (f_next st) (f_hprev st)
               (f_hnext st) (put (f_key st) a k) (put (f_klen st) a len)
               (put (f_hashv st) a hv) (tabs st) (head st)).
  Definition set_head (st : state) (v : Z) : state :=
    mkState (live st) (f_tbl st) (f_prev st) (f_next st) (f_hprev st)
      (f_hnext st) (f_key st) (f_klen st) (f_hashv st) (tabs st) v.
  Definition set_tab (st : state) (t : Z) (o : option table) : state :=
    mkState (live st) (f_tbl st) (f_prev st) (f_next st) (f_hprev st)
      (f_hnext st) (f_key st) (f_klen st) (f_hashv st) (put (tabs st) t o) (head st).

  (** *tbl *)
  Definition rd_tab (st : state) (t : Z) : res table :=
    match tabs st t with Some T => Ok T | None => UB UBBounds end.
  (** tbl->buckets[i] *)
  Definition rd_bkt (bs : list bucket) (i : Z) : res bucket :=
    match nth_error bs (Z.to_nat i) with Some b => Ok b | None => UB UBBounds end.
  Fixpoint replace (bs : list bucket) (i : nat) (b : bucket) : list bucket :=
    match bs, i with
    | [], _ => []
    | _ :: r, O => b :: r
    | x :: r, S i' => x :: replace r i' b
    end.
  Definition wr_bkt (bs : list bucket) (i : Z) (b : bucket) : res (list bucket) :=
    do _ <- rd_bkt bs i; Ok (replace bs (Z.to_nat i) b).
  Definition with_buckets (T : table) (bs : list bucket) : table :=
    mkTab bs (t_num T) (t_log T) (t_items T) (t_tail T) (t_ideal T) (t_nonideal T)
      (t_ineff T) (t_noexpand T).
  Definition with_items (T : table) (n : Z) : table :=
    mkTab (t_buckets T) (t_num T) (t_log T) n (t_tail T) (t_ideal T) (t_nonideal T)
      (t_ineff T) (t_noexpand T).
  Definition with_tail (T : table) (a : Z) : table :=
    mkTab (t_buckets T) (t_num T) (t_log T) (t_items T) a (t_ideal T) (t_nonideal T)
      (t_ineff T) (t_noexpand T).

  (** HASH_TO_BKT: src/uthash.h 433-436 *)
  Definition to_bkt (hashv num : Z) : Z := Z.land hashv (u32 (num - 1)).

  (** HASH_FIND_IN_BKT: src/uthash.h 748-767, from the element [out] *)
  Fixpoint find_in_bkt (fuel : nat) (st : state) (k : K) (len hv out : Z) : res Z :=
    match fuel with
    | O => UB UBFuel
    | S fuel' =>
        if out =? 0 then Ok 0
        else
          do h <- rd st f_hashv out;
          do l <- rd st f_klen out;
          do key <- rd st f_key out;
          if (h =? hv) && (l =? len) && same key k len then Ok out
          else do nxt <- rd st f_hnext out; find_in_bkt fuel' st k len hv nxt
    end.

  (** HASH_FIND: src/uthash.h 156-176 *)
  Definition hash_find (fuel : nat) (st : state) (k : K) (len : Z) : res Z :=
    if head st =? 0 then Ok 0
    else
      do t <- rd st f_tbl (head st);
      do T <- rd_tab st t;
      do b <- rd_bkt (t_buckets T) (to_bkt (hash k len) (t_num T));
      find_in_bkt fuel st k len (hash k len) (b_head b).

  (** HASH_MAKE_TABLE: src/uthash.h 215-245.  [alloc n] tells whether malloc(n)
      succeeds; [t] is the address it gives to the table.  The boolean is oomed. *)
  Definition make_table (alloc : Z -> bool) (t : Z) (st : state) (add : Z)
    : res (bool * state) :=
    if negb (alloc 64) then do st1 <- set_tbl st add 0; Ok (true, st1)
    else
      do st1 <- set_tbl st add t;
      if negb (alloc (32 * 16)) then Ok (true, st1)
      else Ok (false, set_tab st1 t
                 (Some (mkTab (repeat (mkBkt 0 0 0) 32) 32 5 0 add 0 0 0 0))).

  (** HASH_APPEND_LIST: src/uthash.h 281-287 *)
  Definition append_list (st : state) (add : Z) : res state :=
    do st1 <- set_next st add 0;
    do t <- rd st1 f_tbl (head st1);
    do T <- rd_tab st1 t;
    do st2 <- set_prev st1 add (t_tail T);
    do st3 <- set_next st2 (t_tail T) add;
    Ok (set_tab st3 t (Some (with_tail T add))).

  (** HASH_DEL_IN_BKT: src/uthash.h 792-805, on bucket [i] of table [t] *)
  Definition del_in_bkt (st : state) (t i del : Z) : res state :=
    do T <- rd_tab st t;
    do b <- rd_bkt (t_buckets T) i;
    do nx <- rd st f_hnext del;
    do bs <- wr_bkt (t_buckets T) i
               (mkBkt (if b_head b =? del then nx else b_head b) (u32 (b_count b - 1)) (b_mult b));
    let st1 := set_tab st t (Some (with_buckets T bs)) in
    do pv <- rd st1 f_hprev del;
    do st2 <- (if pv =? 0 then Ok st1 else set_hnext st1 pv nx);
    do nx2 <- rd st2 f_hnext del;
    if nx2 =? 0 then Ok st2 else set_hprev st2 nx2 pv.

  (** The inner loop of HASH_EXPAND_BUCKETS: src/uthash.h 854-873; [nbs] are the new
      buckets, [num] their number, [ideal] ideal_chain_maxlen, [non] nonideal_items *)
  Fixpoint move_chain (fuel : nat) (st : state) (num ideal non : Z) (nbs : list bucket)
    (thh : Z) : res (state * Z * list bucket) :=
    match fuel with
    | O => UB UBFuel
    | S fuel' =>
        if thh =? 0 then Ok (st, non, nbs)
        else
          do nxt <- rd st f_hnext thh;
          do hv <- rd st f_hashv thh;
          let i := to_bkt hv num in
          do b <- rd_bkt nbs i;
          let count := u32 (b_count b + 1) in
          let over := ideal <? count in
          let non' := if over then u32 (non + 1) else non in
          let mult := if over && (u32 (b_mult b * ideal) <? count)
                      then u32 (b_mult b + 1) else b_mult b in
          do st1 <- set_hprev st thh 0;
          do st2 <- set_hnext st1 thh (b_head b);
          do st3 <- (if b_head b =? 0 then Ok st2 else set_hprev st2 (b_head b) thh);
          do nbs' <- wr_bkt nbs i (mkBkt thh count mult);
          move_chain fuel' st3 num ideal non' nbs' nxt
    end.

  (** The outer loop: src/uthash.h 852-875 *)
  Fixpoint move_all (fuel : nat) (st : state) (num ideal non : Z) (nbs : list bucket)
    (olds : list bucket) : res (state * Z * list bucket) :=
    match olds with
    | [] => Ok (st, non, nbs)
    | b :: r =>
        do (x, nbs1) <- move_chain fuel st num ideal non nbs (b_head b);
        let (st1, non1) := x in
        move_all fuel st1 num ideal non1 nbs1 r
    end.

  (** HASH_EXPAND_BUCKETS: src/uthash.h 836-889.  sizeof (struct UT_hash_bucket) is
      16.  The first num_buckets buckets of the array are visited. *)
  Definition expand (fuel : nat) (alloc : Z -> bool) (st : state) (t : Z)
    : res (bool * state) :=
    do T <- rd_tab st t;
    if negb (alloc (16 * t_num T * 2)) then Ok (true, st)
    else if 32 <=? t_log T + 1 then UB UBShift
    else
      let num := u32 (t_num T * 2) in
      let ideal := u32 (Z.shiftr (t_items T) (t_log T + 1)
                        + (if Z.land (t_items T) (u32 (num - 1)) =? 0 then 0 else 1)) in
      if (length (t_buckets T) <? Z.to_nat (t_num T))%nat then UB UBBounds
      else
        do (x, nbs) <- move_all fuel st num ideal 0
                         (repeat (mkBkt 0 0 0) (Z.to_nat (t_num T * 2)))
                         (firstn (Z.to_nat (t_num T)) (t_buckets T));
        let (st1, non) := x in
        let ineff := if Z.shiftr (t_items T) 1 <? non then u32 (t_ineff T + 1) else 0 in
        Ok (false, set_tab st1 t
              (Some (mkTab nbs num (u32 (t_log T + 1)) (t_items T) (t_tail T) ideal non ineff
                       (if 1 <? ineff then 1 else t_noexpand T)))).

  (** HASH_ADD_TO_BKT: src/uthash.h 770-789, on bucket [i] *)
  Definition add_to_bkt (fuel : nat) (alloc : Z -> bool) (st : state) (t i add : Z)
    : res (bool * state) :=
    do T <- rd_tab st t;
    do b <- rd_bkt (t_buckets T) i;
    let count := u32 (b_count b + 1) in
    do st1 <- set_hnext st add (b_head b);
    do st2 <- set_hprev st1 add 0;
    do st3 <- (if b_head b =? 0 then Ok st2 else set_hprev st2 (b_head b) add);
    do bs <- wr_bkt (t_buckets T) i (mkBkt add count (b_mult b));
    let st4 := set_tab st3 t (Some (with_buckets T bs)) in
    do t' <- rd st4 f_tbl add;
    do T' <- rd_tab st4 t';
    if (u32 (u32 (b_mult b + 1) * 10) <=? count) && (t_noexpand T' =? 0) then
      do (oomed, st5) <- expand fuel alloc st4 t';
      if oomed : bool then do st6 <- del_in_bkt st5 t i add; Ok (true, st6)
      else Ok (false, st5)
    else Ok (false, st4).

  (** free of the bucket array and of the table: src/uthash.h 458-460, 1043-1045 *)
  Definition free_table (st : state) : res state :=
    do t <- rd st f_tbl (head st);
    do _ <- rd_tab st t;
    Ok (set_tab st t None).

  (** HASH_DELETE_HH: src/uthash.h 453-480 *)
  Definition hash_delete (st : state) (del : Z) : res state :=
    do pv <- rd st f_prev del;
    do nx <- rd st f_next del;
    if (pv =? 0) && (nx =? 0) then
      do st1 <- free_table st; Ok (set_head st1 0)
    else
      do t <- rd st f_tbl (head st);
      do T <- rd_tab st t;
      let st1 := if del =? t_tail T then set_tab st t (Some (with_tail T pv)) else st in
      do st2 <- (if pv =? 0 then Ok (set_head st1 nx) else set_next st1 pv nx);
      do nx2 <- rd st2 f_next del;
      do st3 <- (if nx2 =? 0 then Ok st2 else set_prev st2 nx2 pv);
      do hv <- rd st3 f_hashv del;
      do t3 <- rd st3 f_tbl (head st3);
      do T3 <- rd_tab st3 t3;
      do st4 <- del_in_bkt st3 t3 (to_bkt hv (t_num T3)) del;
      do t4 <- rd st4 f_tbl (head st4);
      do T4 <- rd_tab st4 t4;
      Ok (set_tab st4 t4 (Some (with_items T4 (u32 (t_items T4 - 1))))).

  (** HASH_ROLLBACK_BKT: src/uthash.h 141-149 *)
  Definition rollback_bkt (st : state) (item : Z) : res state :=
    do hv <- rd st f_hashv item;
    do t <- rd st f_tbl (head st);
    do T <- rd_tab st t;
    let i := to_bkt hv (t_num T) in
    do b <- rd_bkt (t_buckets T) i;
    do bs <- wr_bkt (t_buckets T) i (mkBkt (b_head b) (u32 (b_count b + 1)) (b_mult b));
    do st1 <- set_hnext (set_tab st t (Some (with_buckets T bs))) item 0;
    set_hprev st1 item 0.

  (** HASH_ADD_TO_TABLE: src/uthash.h 316-336 (HASH_NONFATAL_OOM is 1:
      src/datum_uthash.h 7, src/context_internal.h 7) *)
  Definition add_to_table (fuel : nat) (alloc : Z -> bool) (st : state) (hv add : Z)
    (oomed : bool) : res (bool * state) :=
    if negb oomed then
      do t <- rd st f_tbl (head st);
      do T <- rd_tab st t;
      let st1 := set_tab st t (Some (with_items T (u32 (t_items T + 1)))) in
      do (oomed', st2) <- add_to_bkt fuel alloc st1 t (to_bkt hv (t_num T)) add;
      if oomed' : bool then
        do st3 <- rollback_bkt st2 add;
        do st4 <- hash_delete st3 add;
        do st5 <- set_tbl st4 add 0;
        Ok (true, st5)
      else Ok (false, st2)
    else do st1 <- set_tbl st add 0; Ok (true, st1).

  (** HASH_ADD_KEYPTR: src/uthash.h 399-425, and HASH_ADD, which is the same with the
      key in the element (430-431).  The boolean tells that
      uthash_nonfatal_oom was called. *)
  Definition hash_add (fuel : nat) (alloc : Z -> bool) (t : Z) (st : state) (k : K)
    (len add : Z) : res (bool * state) :=
    do st1 <- set_key st add k len (hash k len);
    do (oomed, st2) <-
      (if head st1 =? 0 then
         do sa <- set_next st1 add 0;
         do sb <- set_prev sa add 0;
         do (oomed, sc) <- make_table alloc t sb add;
         Ok (oomed, if oomed : bool then sc else set_head sc add)
       else
         do th <- rd st1 f_tbl (head st1);
         do sa <- set_tbl st1 add th;
         do sb <- append_list sa add;
         Ok (false, sb));
    add_to_table fuel alloc st2 (hash k len) add oomed.

  (** HASH_CLEAR: src/uthash.h 1040-1049 *)
  Definition hash_clear (st : state) : res state :=
    if head st =? 0 then Ok st
    else do st1 <- free_table st; Ok (set_head st1 0).

  (** HASH_CNT: src/uthash.h 1070 *)
  Definition hash_count (st : state) : res Z :=
    if head st =? 0 then Ok 0
    else do t <- rd st f_tbl (head st); do T <- rd_tab st t; Ok (t_items T).

  (** HASH_ITER: src/uthash.h 1063-1066: the loop whose body is [body], with the
      elements it was given in order *)
  Definition next_or_null (st : state) (a : Z) : res Z :=
    if a =? 0 then Ok 0 else rd st f_next a.
  Fixpoint iter_loop (fuel : nat) (body : state -> Z -> res state) (st : state) (el tmp : Z)
    : res (list Z * state) :=
    match fuel with
    | O => UB UBFuel
    | S fuel' =>
        if el =? 0 then Ok ([], st)
        else
          do st1 <- body st el;
          do nxt <- next_or_null st1 tmp;
          do (l, st2) <- iter_loop fuel' body st1 tmp nxt;
          Ok (el :: l, st2)
    end.
  Definition hash_iter (fuel : nat) (body : state -> Z -> res state) (st : state)
    : res (list Z * state) :=
    do tmp <- next_or_null st (head st);
    iter_loop fuel body st (head st) tmp.

  (** The bodies of the library's loops: one that only reads (src/map.c 53-57, 70-74,
      296-300), and HASH_DEL followed by free of the element (src/map.c 42-43 with 28-35,
      src/parameter_string.c 39-44) *)
  Definition just_read (st : state) (el : Z) : res state := Ok st.
  Definition set_live (st : state) (a : Z) (v : bool) : state :=
    mkState (put (live st) a v) (f_tbl st) (f_prev st) (f_next st) (f_hprev st)
      (f_hnext st) (f_key st) (f_klen st) (f_hashv st) (tabs st) (head st).
  Definition del_and_free (st : state) (el : Z) : res state :=
    do st1 <- hash_delete st el; Ok (set_live st1 el false).
  (** HASH_DELETE alone, the memory of the elements being freed as a whole afterwards:
      src/parameter_categorical.c 362-366 *)
  Definition del_only (st : state) (el : Z) : res state := hash_delete st el.

  (** What an application may do with a table and with the memory of its elements: an
      element is obtained with any content, and given back; the other operations are
      the macros.  [Add]'s allocator is what malloc does during that call and its [t]
      the address of a table. *)
  Inductive op : Type :=
  | New (a tbl prev next hprev hnext : Z) (k : K) (klen hashv : Z)
  | Free (a : Z)
  | Add (alloc : Z -> bool) (t : Z) (k : K) (len a : Z)
  | Find (k : K) (len : Z)
  | Delete (a : Z)
  | Clear
  | Count
  | Iterate
  | DeleteAll (and_free : bool).
  Inductive out : Type :=
  | Nothing
  | Added (oomed : bool)
  | Found (a : Z)
  | Counted (n : Z)
  | Seen (l : list Z).

  Definition new_element (st : state) (a tbl prev next hprev hnext : Z) (k : K)
    (klen hashv : Z) : state :=
    mkState (put (live st) a true) (put (f_tbl st) a tbl) (put (f_prev st) a prev)
      (put (f_next st) a next) (put (f_hprev st) a hprev) (put (f_hnext st) a hnext)
      (put (f_key st) a k) (put (f_klen st) a klen) (put (f_hashv st) a hashv)
      (tabs st) (head st).

  Definition do_op (fuel : nat) (st : state) (o : op) : res (out * state) :=
    match o with
    | New a tb p n hp hn k kl hv => Ok (Nothing, new_element st a tb p n hp hn k kl hv)
    | Free a => Ok (Nothing, set_live st a false)
    | Add alloc t k len a =>
        do (oomed, st') <- hash_add fuel alloc t st k len a; Ok (Added oomed, st')
    | Find k len => do a <- hash_find fuel st k len; Ok (Found a, st)
    | Delete a => do st' <- hash_delete st a; Ok (Nothing, st')
    | Clear => do st' <- hash_clear st; Ok (Nothing, st')
    | Count => do n <- hash_count st; Ok (Counted n, st)
    | Iterate => do (l, st') <- hash_iter fuel just_read st; Ok (Seen l, st')
    | DeleteAll f =>
        do (l, st') <- hash_iter fuel (if f then del_and_free else del_only) st;
        Ok (Seen l, st')
    end.

  (** An application: what it does next depends on what it was told *)
  Inductive client : Type :=
  | Stop
  | Do (o : op) (next : out -> client).
  Fixpoint run (fuel : nat) (st : state) (p : client) : res (list out) :=
    match p with
    | Stop => Ok []
    | Do o next =>
        do (x, st') <- do_op fuel st o;
        do l <- run fuel st' (next x);
        Ok (x :: l)
    end.

  (** head = NULL, no element and no table; [k] fills the memory *)
  Definition nothing (k : K) : state :=
    mkState (fun _ => false) (fun _ => 0) (fun _ => 0) (fun _ => 0) (fun _ => 0) (fun _ => 0)
      (fun _ => k) (fun _ => 0) (fun _ => 0) (fun _ => None) 0.
End Uthash.
