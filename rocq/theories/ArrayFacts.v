(** Growable arrays: the sizes without repetition of memory are those of the model of
    configuration spaces. *)
From Coq Require Import ZArith List Bool Permutation Sorted Lia.
From Verif Require Import Base SpaceModel SpaceGraph ArrayModel ArraySpec ArrayProofs ArrayRuns.
Import ListNotations.
Open Scope Z_scope.

Lemma strict_unique : forall l m : list nat,
  StronglySorted lt l -> StronglySorted lt m -> (forall x, In x l <-> In x m) -> l = m.
Proof.
  induction l as [|a l IH]; intros [|b m] SL SM E.
  - reflexivity.
  - destruct (proj2 (E b)); now left.
  - destruct (proj1 (E a)); now left.
  - inversion SL as [|u w S1 F1]; subst. inversion SM as [|u w S2 F2]; subst.
    rewrite Forall_forall in F1, F2.
    assert (a = b).
    { destruct (proj1 (E a) (or_introl eq_refl)) as [|A]; [congruence|].
      destruct (proj2 (E b) (or_introl eq_refl)) as [|B]; [congruence|].
      specialize (F1 b B). specialize (F2 a A). lia. }
    subst b. f_equal. apply IH; [assumption..|].
    intros x. specialize (E x). cbn [In] in E. split; intros X.
    + destruct (proj1 E (or_intror X)) as [->|Y]; [|exact Y]. specialize (F1 x X). lia.
    + destruct (proj2 E (or_intror X)) as [->|Y]; [|exact Y]. specialize (F2 x X). lia.
Qed.

Lemma uniq_sorted : forall l, StronglySorted lt (uniq l).
Proof.
  intros l. unfold uniq. pose proof (nsort_sorted l) as S0. destruct (nsort l) as [|y m]; [constructor|].
  apply nuniq_spec, S0.
Qed.

Lemma number_nonneg : forall e, is_size e -> 0 <= number e.
Proof.
  intros e (_ & F). induction F as [|c e (b & -> & B) F IH]; [cbn; lia|].
  unfold number in *. cbn [fold_right]. lia.
Qed.

Definition index (e : list cell) : nat := Z.to_nat (number e).

Lemma map_sorted : forall l, Forall is_size l ->
  StronglySorted (fun x y => number x < number y) l -> StronglySorted lt (map index l).
Proof.
  induction l as [|e l IH]; intros F S0; [constructor|].
  inversion F as [|u w FE FL]; subst. inversion S0 as [|u w S1 F1]; subst.
  cbn [map]. constructor; [now apply IH|].
  apply Forall_forall. intros x X. apply in_map_iff in X. destruct X as (f & <- & X).
  rewrite Forall_forall in F1. specialize (F1 f X). unfold index.
  pose proof (number_nonneg e FE). lia.
Qed.

Lemma uniq_is : forall vs a v ord ans x vs',
  vs a = Some v -> Forall is_size (v_elems v) ->
  does vs (Uniq a ord ans) x vs' ->
  exists l, vs' a = Some (elements v l)
            /\ map index l = SpaceModel.uniq (map index (v_elems v)).
Proof.
  intros vs a v ord ans x vs' V F D.
  remember (Uniq a ord ans) as o eqn:O.
  destruct D; try discriminate O. injection O as -> -> ->.
  rename H into W, H0 into S0, H1 into E. rename v0 into w.
  assert (w = v) by congruence. subst w.
  exists l. split; [apply put_same|].
  assert (FL : Forall is_size l).
  { apply Forall_forall. intros e X. rewrite Forall_forall in F. apply F, E, X. }
  apply strict_unique; [now apply map_sorted|apply uniq_sorted|].
  intros i. rewrite uniq_in, !in_map_iff. split; intros (e & H & X); exists e; split; try exact H;
    now apply E.
Qed.
