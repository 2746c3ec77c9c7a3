(** What filling an array of the application means. *)
From Coq Require Import ZArith List Bool Sorted.
From Verif Require Import Base Datum CodecModel FloatModel GetterModel.
Import ListNotations.
Open Scope Z_scope.

(** An array of the application before and after: [items] in its first cells, the cells after
    them and below [num] changed by [pad], all the others as they were. *)
Record fetched {A : Type} (items : list A) (pad : A -> A) (num : Z) (old new : list A) : Prop := {
  f_same : length new = length old;
  f_items : forall i x, nth_error items i = Some x -> nth_error new i = Some x;
  f_pad : forall i x, (length items <= i)%nat -> Z.of_nat i < num -> nth_error old i = Some x -> nth_error new i = Some (pad x);
  f_rest : forall i, num <= Z.of_nat i -> nth_error new i = nth_error old i
}.
(** the array has at least the cells that the application says *)
Definition roomy {A : Type} (num : Z) (old : option (list A)) : Prop :=
  match old with Some l => num <= lenZ l | None => True end.
(** the number is told where it is asked for *)
Definition told (n : option Z) (k : Z) : option Z := match n with Some _ => Some k | None => None end.

(** A call always refuses, and changes nothing. *)
Definition refuses {A B : Type} (p : Z -> prog A B) (code : Z) : Prop := forall num m, p num m = Stop code m.

(** Calls that tell [items]: with no array, only the number is told; with an array of enough
    cells, the items and the number; any other call is refused and changes nothing. *)
Definition gives {A : Type} (p : Z -> prog A unit) (items : list A) (pad : A -> A) : Prop :=
  forall num old n, 0 <= num -> roomy num old ->
    match old with
    | None =>
        (num = 0 /\ n <> None /\ p num (mkMem None None n) = Next (mkMem None None (told n (lenZ items)))) \/
        ((0 < num \/ n = None) /\ p num (mkMem None None n) = Stop ERR_INVALID_VALUE (mkMem None None n))
    | Some l =>
        (num < lenZ items /\ p num (mkMem (Some l) None n) = Stop ERR_INVALID_VALUE (mkMem (Some l) None n)) \/
        (lenZ items <= num /\ exists l', fetched items pad num l l' /\
           p num (mkMem (Some l) None n) = Next (mkMem (Some l') None (told n (lenZ items))))
    end.
(** the same for two arrays side by side *)
Definition gives_both {A B : Type} (p : Z -> prog A B) (items : list (A * B)) (pa : A) (pb : B) : Prop :=
  forall num a b n, 0 <= num -> roomy num a -> roomy num b ->
    match a, b with
    | None, _ =>
        (num = 0 /\ n <> None /\ p num (mkMem None b n) = Next (mkMem None b (told n (lenZ items)))) \/
        ((0 < num \/ n = None) /\ p num (mkMem None b n) = Stop ERR_INVALID_VALUE (mkMem None b n))
    | Some l, None =>
        (num = 0 /\ items = [] /\ p num (mkMem (Some l) None n) = Next (mkMem (Some l) None (told n 0))) \/
        ((0 < num \/ items <> []) /\ p num (mkMem (Some l) None n) = Stop ERR_INVALID_VALUE (mkMem (Some l) None n))
    | Some l, Some k =>
        (num < lenZ items /\ p num (mkMem a b n) = Stop ERR_INVALID_VALUE (mkMem a b n)) \/
        (lenZ items <= num /\ exists l' k',
           fetched (map fst items) (fun _ => pa) num l l' /\ fetched (map snd items) (fun _ => pb) num k k' /\
           p num (mkMem a b n) = Next (mkMem (Some l') (Some k') (told n (lenZ items))))
    end.

(** The differences of the successive cells of a table *)
Definition steps_of (table items : list Z) : Prop :=
  length table = S (length items) /\
  forall i a b, nth_error table i = Some a -> nth_error table (S i) = Some b -> nth_error items i = Some (fsub b a).
(** The same elements, each once, in increasing order *)
Definition each_once (l items : list Z) : Prop :=
  StronglySorted Z.lt items /\ (forall x, In x items <-> In x l).
(** The evaluations of the given features, in order *)
Inductive selected : list (Z * Z) -> list Z -> Prop :=
| sel_nil : selected [] []
| sel_keep e l items : selected l items -> selected ((e, 0) :: l) (e :: items)
| sel_drop e c l items : c <> 0 -> selected l items -> selected ((e, c) :: l) items.
