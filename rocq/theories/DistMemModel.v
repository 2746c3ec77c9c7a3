(** Sampling nested distributions into memory.
    Sources: /repo/src/distribution.c 105-162, distribution_multivariate.c 295-356,
    distribution_mixture.c 356-446, distribution_uniform.c 363-374, distribution_roulette.c
    220-233, distribution_normal.c 518-530.
    Memory is an array of cells (ccs_numeric_t); addresses are indices in it, and writing
    outside of it is undefined behaviour. One-dimensional distributions (uniform, normal,
    roulette) are leaves: [leaf id g n] are the [n] values drawn by distribution [id] from the
    state [g] of the generator, and the new state. The three entry points of a leaf draw the
    same values; they only differ in where these are written. [uniform01] is gsl_rng_uniform. *)
From Coq Require Import ZArith List Bool.
From Verif Require Import Base Datum CodecModel FloatModel DistModel.
Import ListNotations.
Open Scope Z_scope.

(** multivariate and mixture distributions hold other distributions; mixtures also a table
    of cumulated weights *)
Inductive dist : Type :=
| DLeaf (id : nat)
| DMulti (ds : list dist)
| DMix (table : list Z) (ds : list dist).

(** common_data.dimension: 1; the sum (distribution_multivariate.c 203-209); that of the
    first component (distribution_mixture.c 196-207) *)
Fixpoint dim (d : dist) : nat :=
  match d with
  | DLeaf _ => 1
  | DMulti ds => (fix sum l := match l with [] => 0 | x :: l => dim x + sum l end)%nat ds
  | DMix _ ds => match ds with [] => 0%nat | x :: _ => dim x end
  end.

(** *p = v *)
Fixpoint put (m : list Z) (p : nat) (v : Z) : res (list Z) :=
  match m, p with
  | [], _ => UB UBBounds
  | _ :: l, O => Ok (v :: l)
  | x :: l, S p' => do l' <- put l p' v; Ok (x :: l')
  end.
(** values[i * stride] = vs[i] *)
Fixpoint put_all (m : list Z) (p stride : nat) (vs : list Z) : res (list Z) :=
  match vs with
  | [] => Ok m
  | v :: l => do m' <- put m p v; put_all m' (p + stride) stride l
  end.

(** a pointer to cells: NULL, an address, or a variable not initialised *)
Inductive ptr : Type := PNull | PAddr (a : nat) | PUninit.

(** distribution_mixture.c 421-425, testing pointers until one is not NULL *)
Fixpoint any_wanted (ps : list ptr) : res bool :=
  match ps with
  | [] => Ok false
  | PNull :: l => any_wanted l
  | PAddr _ :: _ => Ok true
  | PUninit :: _ => UB UBUninit
  end.
(** 436-438: p_values of NULL pointers is left as it was on the stack *)
Fixpoint row_pointers (ps : list ptr) (i : nat) : res (list ptr) :=
  match ps with
  | [] => Ok []
  | p :: l =>
      do q <- (match p with PNull => Ok PUninit | PAddr a => Ok (PAddr (a + i)) | PUninit => UB UBUninit end);
      do qs <- row_pointers l i; Ok (q :: qs)
  end.

Section Rng.
  Variable rng : Type.
  Variable leaf : nat -> rng -> nat -> list Z * rng.
  Variable uniform01 : rng -> Z * rng.

  (** [samples] (mode [None]) and [strided_samples] (mode [Some stride]) of the three kinds:
      leaves write at a distance of 1 or [stride]; multivariate distributions always call
      [strided_samples], with their dimension or [stride] (distribution_multivariate.c
      295-333); mixtures call [samples] for each value, at a distance of their dimension or
      [stride] (distribution_mixture.c 356-405). *)
  Fixpoint run (d : dist) (mode : option nat) (n p : nat) (g : rng) (m : list Z) {struct d} : res (rng * list Z) :=
    match d with
    | DLeaf id =>
        let (vs, g') := leaf id g n in
        do m' <- put_all m p (match mode with None => 1%nat | Some s => s end) vs;
        Ok (g', m')
    | DMulti ds =>
        let stride := match mode with None => dim d | Some s => s end in
        (fix each l p g m := match l with
                             | [] => Ok (g, m)
                             | x :: l' => do r <- run x (Some stride) n p g m;
                                          each l' (p + dim x)%nat (fst r) (snd r)
                             end) ds p g m
    | DMix table ds =>
        let stride := match mode with None => dim d | Some s => s end in
        (fix rows k p g m :=
           match k with
           | O => Ok (g, m)
           | S k' =>
               let (u, g1) := uniform01 g in
               do i <- dichotomic_search (lenZ ds) table u;
               do r <- (fix at_index l j := match l with
                                      | [] => UB UBBounds
                                      | x :: l' => if j =? 0 then run x None 1 p g1 m else at_index l' (j - 1)
                                      end) ds i;
               rows k' (p + stride)%nat (fst r) (snd r)
           end) n p g m
    end.

  (** [soa_samples]: leaves skip NULL pointers (distribution_uniform.c 363-374 and alike) *)
  Fixpoint soa (d : dist) (n : nat) (ps : list ptr) (g : rng) (m : list Z) {struct d} : res (rng * list Z) :=
    match d with
    | DLeaf id =>
        match ps with
        | [] => UB UBBounds
        | PNull :: _ => Ok (g, m)
        | PUninit :: _ => UB UBUninit
        | PAddr a :: _ => run d None n a g m
        end
    | DMulti ds =>
        (fix each l ps g m := match l with
                              | [] => Ok (g, m)
                              | x :: l' => do r <- soa x n ps g m;
                                           each l' (skipn (dim x) ps) (fst r) (snd r)
                              end) ds ps g m
    | DMix table ds =>
        if (length ps <? dim d)%nat then UB UBBounds
        else
          let ps := firstn (dim d) ps in
          do needed <- any_wanted ps;
          if negb needed then Ok (g, m)
          else
            (fix rows k i g m :=
               match k with
               | O => Ok (g, m)
               | S k' =>
                   let (u, g1) := uniform01 g in
                   do j <- dichotomic_search (lenZ ds) table u;
                   do qs <- row_pointers ps i;
                   do r <- (fix at_index l j := match l with
                                          | [] => UB UBBounds
                                          | x :: l' => if j =? 0 then soa x 1 qs g1 m else at_index l' (j - 1)
                                          end) ds j;
                   rows k' (S i) (fst r) (snd r)
               end) n O g m
    end.

  (** distribution.c 105-162 [ccs_distribution_samples], [ccs_distribution_strided_samples],
      [ccs_distribution_soa_samples]; [values] is not NULL *)
  Definition dist_samples (d : dist) (n p : nat) (g : rng) (m : list Z) : res (rng * list Z) :=
    if (n =? 0)%nat then Ok (g, m) else run d None n p g m.
  Definition dist_strided (d : dist) (n stride p : nat) (g : rng) (m : list Z) : res (rng * list Z) :=
    do _ <- refute (stride <? dim d)%nat ERR_INVALID_VALUE;
    if (n =? 0)%nat then Ok (g, m) else run d (Some stride) n p g m.
  Definition dist_soa (d : dist) (n : nat) (ps : list ptr) (g : rng) (m : list Z) : res (rng * list Z) :=
    if (n =? 0)%nat then Ok (g, m) else soa d n ps g m.
End Rng.
