(** Independent description of what random tuners keep. *)
From Coq Require Import ZArith List Bool.
From Verif Require Import Base Datum CmpModel CmpSpec ParamModel ContextModel ExprModel EvalModel EvalSpec TunerModel.
Import ListNotations.
Open Scope Z_scope.

(** [selects P i l o]: [o] keeps, in order, the elements of [l] at the positions that
    satisfy [P], the first of [l] being at position [i] *)
Inductive selects {A : Type} (P : nat -> Prop) : nat -> list A -> list A -> Prop :=
| selects_nil i : selects P i [] []
| selects_keep i x l o : P i -> selects P (S i) l o -> selects P i (x :: l) (x :: o)
| selects_drop i x l o : ~ P i -> selects P (S i) l o -> selects P i (x :: l) o.

(** The evaluations told so far that were successful, in order *)
Definition told_by (c : world * list Z) : list Z :=
  filter (fun e => ev_result (w_eval (fst c) e) =? 0) (snd c).
Definition told (calls : list (world * list Z)) : list Z := concat (map told_by calls).

Section Front.
  Variable heap : Z -> param.
  Variable jen : list Z -> Z.
  Variable feat : bool.
  (** the evaluation at position [i] of a history is not dominated by any other and is not
      tied with an earlier one *)
  Definition undominated (w : world) (hist : list Z) (i : nat) : Prop :=
    exists e, nth_error hist i = Some e /\ (forall f, In f hist -> ~ dominates heap jen feat w f e) /\
      (forall j f, (j < i)%nat -> nth_error hist j = Some f -> ~ tied heap jen feat w f e).
  Definition front (w : world) (hist optima : list Z) : Prop := selects (undominated w hist) 0 hist optima.
  (** an evaluation has not changed between two moments *)
  Definition unchanged (w w' : world) (e : Z) : Prop :=
    w_eval w e = w_eval w' e /\ w_space w (ev_space (w_eval w e)) = w_space w' (ev_space (w_eval w e)) /\
    w_features w (ev_features (w_eval w e)) = w_features w' (ev_features (w_eval w e)).
  Definition settled (calls : list (world * list Z)) (final : world) : Prop :=
    forall before w es after, calls = before ++ (w, es) :: after ->
    forall e, In e (told (before ++ [(w, es)])) -> unchanged w final e.

  (** What one evaluation does to the optima, in terms of its comparisons with them.
      [minus_beaten]: the optima without those the new evaluation is better than. *)
  Inductive minus_beaten (w : world) (e : Z) : list Z -> list Z -> Prop :=
  | mb_nil : minus_beaten w e [] []
  | mb_beaten o l l' : compares heap jen feat w e o (Ok (-1)) -> minus_beaten w e l l' -> minus_beaten w e (o :: l) l'
  | mb_kept o l l' : compares heap jen feat w e o (Ok 2) -> minus_beaten w e l l' -> minus_beaten w e (o :: l) (o :: l').
  Inductive retold (w : world) (e : Z) : list Z -> list Z -> Prop :=
  | retold_added l l' : minus_beaten w e l l' -> retold w e l (l' ++ [e])
  | retold_worse l1 o l2 l' : minus_beaten w e l1 l' ->
      compares heap jen feat w e o (Ok 0) \/ compares heap jen feat w e o (Ok 1) -> retold w e (l1 ++ o :: l2) (l' ++ o :: l2)
  | retold_failed l1 o l2 l' c : minus_beaten w e l1 l' -> compares heap jen feat w e o (Err c) ->
      retold w e (l1 ++ o :: l2) (l' ++ l2).
End Front.

(** Reading an array: refused if too small, else filled, the rest being NULL *)
Inductive read {A : Type} (none : A) (l : list A) : option nat -> res (option (list A) * nat) -> Prop :=
| read_count : read none l None (Ok (None, length l))
| read_small n : (n < length l)%nat -> read none l (Some n) (Err ERR_INVALID_VALUE)
| read_filled n pad : (length l <= n)%nat -> pad = repeat none (n - length l) -> read none l (Some n) (Ok (Some (l ++ pad), length l)).
(** [restricted P l l']: [l'] is the sub-list of the elements of [l] that satisfy [P] *)
Inductive restricted {A : Type} (P : A -> Prop) : list A -> list A -> Prop :=
| restricted_nil : restricted P [] []
| restricted_in x l l' : P x -> restricted P l l' -> restricted P (x :: l) (x :: l')
| restricted_out x l l' : ~ P x -> restricted P l l' -> restricted P (x :: l) l'.
