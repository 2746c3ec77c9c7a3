(** Property C38: where the samples of nested distributions are written. *)
From Coq Require Import ZArith List Bool Lia.
From Verif Require Import Base Datum CodecModel FloatModel FloatSpec DistModel DistSpec DistMemModel DistMemSpec DistMemProofs.
Import ListNotations.
Open Scope Z_scope.

(** C38. Component k of sample i goes to the slot p + i * dim + k; no other cell changes. *)
Theorem C38_samples : forall (rng : Type) (leaf : nat -> rng -> nat -> list Z * rng) (uniform01 : rng -> Z * rng),
  (forall id g n, length (fst (leaf id g n)) = n) -> (forall g, unit_draw (fst (uniform01 g))) ->
  forall d n p g m, wf_dist d -> (0 < n)%nat -> (p + n * dim d <= length m)%nat ->
  exists cs g' m', drawn rng leaf uniform01 d (repeat true (dim d)) n g cs g' /\ shaped (repeat true (dim d)) n cs /\
    dist_samples rng leaf uniform01 d n p g m = Ok (g', m') /\ updated m m' (strided_cells p (dim d) cs).
Proof. exact samples_api. Qed.
Print Assumptions C38_samples.
(** With a stride the slots are p + i * stride + k, and too small a stride is refused. *)
Theorem C38_strided : forall (rng : Type) (leaf : nat -> rng -> nat -> list Z * rng) (uniform01 : rng -> Z * rng),
  (forall id g n, length (fst (leaf id g n)) = n) -> (forall g, unit_draw (fst (uniform01 g))) ->
  forall d n stride p g m, wf_dist d ->
  ((stride < dim d)%nat -> dist_strided rng leaf uniform01 d n stride p g m = Err ERR_INVALID_VALUE) /\
  ((dim d <= stride)%nat -> (0 < n)%nat -> (p + (n - 1) * stride + dim d <= length m)%nat ->
   exists cs g' m', drawn rng leaf uniform01 d (repeat true (dim d)) n g cs g' /\ shaped (repeat true (dim d)) n cs /\
    dist_strided rng leaf uniform01 d n stride p g m = Ok (g', m') /\ updated m m' (strided_cells p stride cs)).
Proof. exact strided_api. Qed.
Print Assumptions C38_strided.
(** With one array per dimension component k of sample i goes to cell i of array k and
    dimensions without an array are skipped. If some but not all the dimensions of a mixture
    have an array, a pointer that was not initialised is used. *)
Theorem C38_arrays : forall (rng : Type) (leaf : nat -> rng -> nat -> list Z * rng) (uniform01 : rng -> Z * rng),
  (forall id g n, length (fst (leaf id g n)) = n) -> (forall g, unit_draw (fst (uniform01 g))) ->
  forall d n ps g m, wf_dist d -> (0 < n)%nat -> length ps = dim d -> ~ In PUninit ps -> separate ps n (length m) ->
  (all_or_none d (wanted ps) -> exists cs g' m', drawn rng leaf uniform01 d (wanted ps) n g cs g' /\ shaped (wanted ps) n cs /\
    dist_soa rng leaf uniform01 d n ps g m = Ok (g', m') /\ updated m m' (soa_cells ps cs)) /\
  (~ all_or_none d (wanted ps) -> dist_soa rng leaf uniform01 d n ps g m = UB UBUninit).
Proof. exact soa_api. Qed.
Print Assumptions C38_arrays.
Theorem C38_no_sample : forall (rng : Type) (leaf : nat -> rng -> nat -> list Z * rng) (uniform01 : rng -> Z * rng) d p ps g m,
  dist_samples rng leaf uniform01 d 0 p g m = Ok (g, m) /\ dist_soa rng leaf uniform01 d 0 ps g m = Ok (g, m) /\
  forall stride, (dim d <= stride)%nat -> dist_strided rng leaf uniform01 d 0 stride p g m = Ok (g, m).
Proof.
  intros. split; [reflexivity|]. split; [reflexivity|]. intros stride H. unfold dist_strided. now rewrite (proj2 (Nat.ltb_ge _ _) H).
Qed.
Print Assumptions C38_no_sample.

(** A generator that counts; leaf [id] draws id * 100 plus the count. *)
Definition ex_leaf (id : nat) (g : Z) (n : nat) : list Z * Z :=
  (map (fun k => Z.of_nat id * 100 + g + Z.of_nat k) (seq 0 n), g + Z.of_nat n).
(** draws 0, 0.25, 0.5, 0.75 in turn *)
Definition ex_uniform (g : Z) : Z * Z :=
  ((if g mod 4 =? 0 then 0 else if g mod 4 =? 1 then 0x3fd0000000000000 else if g mod 4 =? 2 then 0x3fe0000000000000 else 0x3fe8000000000000), g + 1).
(** (1, (2, 3) or (4, 5)) *)
Definition ex_mix := DMix [0; 0x3fe0000000000000; 0x3ff0000000000000] [DMulti [DLeaf 2; DLeaf 3]; DMulti [DLeaf 4; DLeaf 5]].
Definition ex_dist := DMulti [DLeaf 1; ex_mix].
Example C38_ex :
  dim ex_dist = 3%nat /\
  dist_samples Z ex_leaf ex_uniform ex_dist 2 1 0 (repeat 9 8) = Ok (8, [9; 100; 403; 504; 101; 206; 307; 9]) /\
  dist_strided Z ex_leaf ex_uniform ex_dist 2 4 0 0 (repeat 9 8) = Ok (8, [100; 403; 504; 9; 101; 206; 307; 9]) /\
  dist_soa Z ex_leaf ex_uniform ex_dist 2 [PNull; PAddr 0; PAddr 3] 0 (repeat 9 6) = Ok (6, [201; 404; 9; 302; 505; 9]) /\
  dist_soa Z ex_leaf ex_uniform ex_dist 2 [PAddr 1; PNull; PNull] 0 (repeat 9 4) = Ok (2, [9; 100; 101; 9]).
Proof. vm_compute. repeat split. Qed.
(** The pointers of the second dimension of a mixture are not set if it is not wanted. *)
Theorem C38_partly_wanted_mixture_refuted : exists d ps,
  wf_dist d /\ length ps = dim d /\ separate ps 1 8 /\ ~ In PUninit ps /\
  dist_soa Z ex_leaf ex_uniform d 1 ps 0 (repeat 9 8) = UB UBUninit.
Proof.
  exists ex_mix, [PAddr 0; PNull].
  assert (W : wf_dist ex_mix).
  { constructor; [|split; [reflexivity|]; split; [cbn; lia|]; split; [|split; vm_compute; discriminate]; repeat (apply Forall_cons; [split; [lia|vm_compute; discriminate]|]); apply Forall_nil|vm_compute; discriminate].
    intros d [<-|[<-|[]]]; (split; [constructor; [discriminate|intros x [<-|[<-|[]]]; constructor]|reflexivity]). }
  split; [exact W|]. split; [reflexivity|]. split.
  - split; [intros [|[|[|]]] a E; try discriminate; injection E as <-; lia|].
    intros [|[|[|]]] [|[|[|]]] a b D E F; try discriminate; lia.
  - split; [intros [H|[H|[]]]; discriminate|vm_compute; reflexivity].
Qed.
Print Assumptions C38_partly_wanted_mixture_refuted.
