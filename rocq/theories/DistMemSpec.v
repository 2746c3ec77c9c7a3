(** What sampling a nested distribution yields, whatever the layout of the memory: one column
    of values per dimension that is wanted. *)
From Coq Require Import ZArith List Bool.
From Verif Require Import Base Datum FloatModel FloatSpec DistModel DistSpec DistMemModel.
Import ListNotations.
Open Scope Z_scope.

Section Dist_induction.
  Variable P : dist -> Prop.
  Hypothesis L : forall id, P (DLeaf id).
  Hypothesis M : forall ds, Forall P ds -> P (DMulti ds).
  Hypothesis X : forall t ds, Forall P ds -> P (DMix t ds).
  Fixpoint dist_induct (d : dist) : P d :=
    match d with
    | DLeaf id => L id
    | DMulti ds => M ds ((fix all l : Forall P l := match l with [] => Forall_nil P | x :: l' => Forall_cons x (dist_induct x) (all l') end) ds)
    | DMix t ds => X t ds ((fix all l : Forall P l := match l with [] => Forall_nil P | x :: l' => Forall_cons x (dist_induct x) (all l') end) ds)
    end.
End Dist_induction.

(** Distributions as the constructors build them: there is a component; components of mixtures have the same
    dimension, and the table of weights covers the numbers from 0 to 1 *)
Inductive wf_dist : dist -> Prop :=
| wf_leaf id : wf_dist (DLeaf id)
| wf_multi ds : ds <> [] -> (forall d, In d ds -> wf_dist d) -> wf_dist (DMulti ds)
| wf_mix t d0 ds : (forall d, In d (d0 :: ds) -> wf_dist d /\ dim d = dim d0) ->
    covering t (length (d0 :: ds)) -> lenZ t <= 2 ^ 60 -> wf_dist (DMix t (d0 :: ds)).

Section Rng.
  Variable rng : Type.
  Variable leaf : nat -> rng -> nat -> list Z * rng.
  Variable uniform01 : rng -> Z * rng.

  (** a row on top of columns *)
  Definition on_top (row rest : list (option (list Z))) : list (option (list Z)) :=
    map (fun p => match p with (Some a, Some b) => Some (a ++ b) | _ => None end) (combine row rest).

  (** [drawn d want n g cs g']: [n] values of [d] drawn from state [g] are the columns [cs], one
      per wanted dimension, and the state is then [g']. Components of a multivariate
      distribution are drawn one after the other; values of a mixture one after the other,
      each from the component whose area contains a draw. *)
  Inductive drawn : dist -> list bool -> nat -> rng -> list (option (list Z)) -> rng -> Prop :=
  | drawn_leaf id n g vs g' : leaf id g n = (vs, g') -> drawn (DLeaf id) [true] n g [Some vs] g'
  | drawn_unwanted id n g : drawn (DLeaf id) [false] n g [None] g
  | drawn_multi ds want n g cs g' : drawn_all ds want n g cs g' -> drawn (DMulti ds) want n g cs g'
  | drawn_mix t ds want n g cs g' : In true want -> drawn_rows t ds want n g cs g' -> drawn (DMix t ds) want n g cs g'
  | drawn_nothing t ds want n g : ~ In true want -> drawn (DMix t ds) want n g (map (fun _ => None) want) g
  with drawn_all : list dist -> list bool -> nat -> rng -> list (option (list Z)) -> rng -> Prop :=
  | all_nil n g : drawn_all [] [] n g [] g
  | all_cons d ds w1 w2 n g c1 g1 c2 g2 : drawn d w1 n g c1 g1 -> drawn_all ds w2 n g1 c2 g2 ->
      drawn_all (d :: ds) (w1 ++ w2) n g (c1 ++ c2) g2
  with drawn_rows : list Z -> list dist -> list bool -> nat -> rng -> list (option (list Z)) -> rng -> Prop :=
  | rows_none t ds want g : drawn_rows t ds want 0 g (map (fun w : bool => if w then Some [] else None) want) g
  | rows_more t ds want n g u g1 i d row g2 rest g3 : uniform01 g = (u, g1) -> in_area t i u -> nth_error ds i = Some d ->
      drawn d want 1 g1 row g2 -> drawn_rows t ds want n g2 rest g3 ->
      drawn_rows t ds want (S n) g (on_top row rest) g3.
End Rng.

(** value [i] of column [k] *)
Definition value_at (cs : list (option (list Z))) (k i : nat) : option Z :=
  match nth_error cs k with Some (Some c) => nth_error c i | _ => None end.
(** one column of [n] values per wanted dimension *)
Definition shaped (want : list bool) (n : nat) (cs : list (option (list Z))) : Prop :=
  Forall2 (fun (w : bool) c => if w then exists l, c = Some l /\ length l = n else c = None) want cs.

(** From memory [m] to [m'], exactly the cells [W] were written, with the values it gives *)
Definition updated (m m' : list Z) (W : nat -> Z -> Prop) : Prop :=
  length m' = length m /\ (forall p v, W p v -> nth_error m' p = Some v) /\
  (forall p, (forall v, ~ W p v) -> nth_error m' p = nth_error m p).
(** The cells of an array of structures: value [i] of column [k] at p + i * stride + k *)
Definition strided_cells (p stride : nat) (cs : list (option (list Z))) (q : nat) (v : Z) : Prop :=
  exists k i, q = (p + i * stride + k)%nat /\ value_at cs k i = Some v.
(** The cells of a structure of arrays: value [i] of column [k] at the k-th pointer plus i *)
Definition soa_cells (ps : list ptr) (cs : list (option (list Z))) (q : nat) (v : Z) : Prop :=
  exists k i a, nth_error ps k = Some (PAddr a) /\ q = (a + i)%nat /\ value_at cs k i = Some v.

(** Arrays of [n] cells inside of memory, not overlapping *)
Definition separate (ps : list ptr) (n len : nat) : Prop :=
  (forall k a, nth_error ps k = Some (PAddr a) -> (a + n <= len)%nat) /\
  (forall j k a b, j <> k -> nth_error ps j = Some (PAddr a) -> nth_error ps k = Some (PAddr b) ->
     (a + n <= b \/ b + n <= a)%nat).
(** Which dimensions are wanted, that is have a pointer which is not NULL *)
Definition wanted (ps : list ptr) : list bool := map (fun p => match p with PNull => false | _ => true end) ps.
(** Of each mixture, either all the dimensions are wanted or none is *)
Fixpoint all_or_none (d : dist) (want : list bool) : Prop :=
  match d with
  | DLeaf _ => True
  | DMulti ds => (fix all l want := match l with
                                    | [] => True
                                    | x :: l' => all_or_none x (firstn (dim x) want) /\ all l' (skipn (dim x) want)
                                    end) ds want
  | DMix _ _ => (forall w, In w want -> w = true) \/ (forall w, In w want -> w = false)
  end.
