(** Each call: the invariant is kept, and what it makes or changes. *)
From Coq Require Import ZArith List Bool Lia.
From Verif Require Import Base LifeModel LifeSpec LifeProofs LifeOps.
Import ListNotations.
Open Scope Z_scope.

(** References from outside, pointwise. *)
Ltac nonneg :=
  repeat match goal with
  | |- context [is ?a ?b] =>
      lazymatch goal with _ : 0 <= is a b |- _ => fail | _ => pose proof (is_nonneg a b) end
  | |- context [is_some ?a ?b] =>
      lazymatch goal with _ : 0 <= is_some a b |- _ => fail | _ => pose proof (is_some_nonneg a b) end
  | |- context [times ?a ?b] =>
      lazymatch goal with _ : 0 <= times a b |- _ => fail | _ => pose proof (times_nonneg a b) end
  | |- context [holds ?a ?b] =>
      lazymatch goal with _ : 0 <= holds a b |- _ => fail | _ => pose proof (holds_nonneg a b) end
  | O : ok ?s ?e |- context [?e ?x] =>
      lazymatch goal with _ : 0 <= e x |- _ => fail | _ => pose proof (ok_nonneg s e x O) end
  end.
Ltac refs :=
  intros; unfold plus, minus; cbn [holds sum fold_right]; rewrite ?is_same, ?times_nil; nonneg; lia.

Lemma wants_at : forall s0 e s, at_ s0 e s -> forall x o T, live s0 x o -> o_type o = T ->
  exists ox, live s x ox /\ o_type ox = T.
Proof. intros s0 e s A x o T L E. destruct (at_live _ _ _ _ _ A L) as (r & _ & L'). eexists; split; eauto. Qed.

Ltac wanted :=
  let I := fresh "I" in
  intros ? ? I; cbn in I;
  repeat match goal with
  | H : _ \/ _ |- _ => destruct H as [H|H]
  | H : (_, _) = (_, _) |- _ => injection H as <- <-
  | H : False |- _ => destruct H
  end;
  solve [eapply wants_at; eauto].

Ltac failing_ := solve [eapply at_failed; [eassumption|eassumption|refs|reflexivity || assumption]].

Lemma wp_validate_values : forall l s (Q : unit -> st -> Prop) (F : Z -> st -> Prop),
  (existsb refused_value l = false -> Q tt s) ->
  (forall c, existsb refused_value l = true -> c < 0 -> F c s) -> wp (validate_values l) s Q F.
Proof.
  induction l as [|v l IH]; intros s Q F HQ HF; cbn [validate_values].
  - apply wp_ret. auto.
  - apply wp_bind. apply wp_verdict.
    + intros c -> N. apply HF; auto. cbn. apply orb_true_iff. left. now apply Z.ltb_lt.
    + intros N. assert (refused_value v = false) as R.
      { destruct v as [c|]; auto. cbn. apply Z.ltb_ge. auto. }
      cbn [existsb] in HQ, HF. rewrite R in HQ, HF. auto.
Qed.
Lemma wp_validate : forall v s (Q : unit -> st -> Prop) (F : Z -> st -> Prop),
  Q tt s -> (forall c, c < 0 -> F c s) -> wp (validate v) s Q F.
Proof.
  intros [n|l] s Q F HQ HF; [apply wp_ret; auto|]. apply wp_validate_values; auto.
Qed.
Lemma wp_check_values : forall v n s (Q : unit -> st -> Prop) (F : Z -> st -> Prop),
  Q tt s -> F ERR_INVALID_VALUE s -> wp (check_values v n) s Q F.
Proof. intros [k|l] n s Q F HQ HF; apply wp_refute; auto. Qed.
Lemma wp_num_parameters : forall h s o (Q : nat -> st -> Prop) (F : Z -> st -> Prop),
  live s h o -> (forall n, Q n s) -> wp (num_parameters h) s Q F.
Proof. intros h s o Q F L HQ. apply wp_bind. eapply wp_get_data; [apply L|]. apply wp_ret. auto. Qed.

(** One step of a program that has changed nothing yet. *)
Ltac step1 :=
  lazymatch goal with
  | |- wp (bindp _ _) _ _ _ => apply wp_bind
  | |- wp (orelse _ _) _ _ _ => apply wp_orelse
  | |- wp (ret _) _ _ _ => apply wp_ret
  | |- wp (raise _) _ _ _ => apply wp_raise
  | |- wp (refutep _ _) _ _ _ => apply wp_refute; [intros _; try failing_|intros ?]
  | |- wp (verdict _) _ _ _ => apply wp_verdict; [intros ? _ ?; try failing_|intros ?]
  | |- wp (check_obj _ _) _ _ _ =>
      apply wp_check; [assumption|try failing_|
        let h := fresh "h" in let o := fresh "o" in intros h o -> ? ?]
  | |- wp (validate _) _ _ _ => apply wp_validate; [|intros ? ?; try failing_]
  | |- wp (check_values _ _) _ _ _ => apply wp_check_values; [|try failing_]
  | |- wp (num_parameters _) _ _ _ => eapply wp_num_parameters; [eassumption|intros ?]
  | |- wp alloc _ _ _ =>
      eapply wp_alloc_at; [eassumption| |];
        [match goal with A : at_ _ _ _ |- _ => clear A end; intros ? ?|
         match goal with A : at_ _ _ _ |- _ => clear A end; intros ? ?; try failing_]
  | |- wp (retain (Some _)) _ _ _ =>
      eapply wp_retain_at0; [eassumption|eexists; eassumption|];
        match goal with A : at_ _ _ _ |- _ => clear A end; intros ? ?
  | |- wp (drop _) _ _ _ =>
      eapply wp_drop_at; [eassumption|eassumption|refs|refs|];
        match goal with A : at_ _ _ _ |- _ => clear A end; intros ? ?
  end.

Ltac results :=
  repeat lazymatch goal with
  | |- exists _, _ => eexists
  | |- Some _ = Some _ /\ _ => split; [reflexivity|]
  end.

Ltac made_now :=
  eapply wp_new_final; [eassumption|refs|cbn; auto; fail|exact Logic.I|wanted|];
  let s' := fresh "s'" in let O := fresh "O" in let K := fresh "K" in
  intros s' O K ? ? ?; results; split; [eapply ok_ext; [|exact O]; refs|split; [exact K|split; [assumption|]]];
  match goal with H : forall x, look _ x = _ |- _ => rewrite H end;
  match goal with |- context [Nat.eq_dec ?a ?a] => destruct (Nat.eq_dec a a); [reflexivity|easy] end.

Section Calls.
Variables (s0 : st) (e0 : handle -> Z).
Hypothesis O0 : ok s0 e0.
Let A0 : at_ s0 e0 s0 := at_refl s0 e0 O0.

Lemma create_plain_ok : forall t, fits t PPlain ->
  wp (create_plain t) s0 (made_ s0 e0 t PPlain) (failed_ s0 e0).
Proof.
  intros t Ft. pose proof A0 as A. unfold create_plain. step1. step1. made_now.
Qed.

Lemma create_map_ok : wp create_map s0 (made_ s0 e0 T_MAP (PMap [])) (failed_ s0 e0).
Proof. pose proof A0 as A. unfold create_map. step1. step1. made_now. Qed.

Lemma create_context_ok : forall t, fits t (PContext [] []) ->
  wp (create_context t) s0 (made_ s0 e0 t (PContext [] [])) (failed_ s0 e0).
Proof. intros t Ft. pose proof A0 as A. unfold create_context. step1. step1. made_now. Qed.

Lemma create_tree_ok : forall n v,
  wp (create_tree n v) s0 (made_ s0 e0 T_TREE (PTree (repeat None n))) (failed_ s0 e0).
Proof.
  intros n v. pose proof A0 as A. unfold create_tree. step1. step1. step1. step1.
  assert (Hz : forall x, sum (is_some x) (repeat None n) = 0).
  { intros x. induction n; auto. }
  assert (Hw : flat_map (fun o : option handle => match o with Some x => [(x, T_TREE)] | None => [] end)
                 (repeat None n) = []) by (clear; induction n; auto).
  eapply wp_new_final; [eassumption|intros; cbn [holds]; rewrite Hz; nonneg; lia|reflexivity|exact Logic.I| |].
  - intros x T I. cbn [wants] in I. rewrite Hw in I. destruct I.
  - intros s1 O K ? ? L. split; [eapply ok_ext; [|exact O]; intros; cbn [holds]; rewrite Hz; refs|].
    split; [exact K|]. split; [assumption|]. rewrite L. now destruct (Nat.eq_dec (size s') (size s')).
Qed.

Lemma create_variable_ok : forall x, valid s0 x ->
  wp (create_variable x) s0
     (fun h s1 => exists p, x = Some p /\ made_ s0 e0 T_EXPRESSION (PVariable p) h s1) (failed_ s0 e0).
Proof.
  intros x V. pose proof A0 as A. unfold create_variable. step1. step1. step1. step1. step1. step1.
  made_now.
Qed.

Lemma create_features_ok : forall x v, valid s0 x ->
  wp (create_features x v) s0
     (fun h s1 => exists f, x = Some f /\ made_ s0 e0 T_FEATURES (PConfiguration f) h s1)
     (failed_ s0 e0).
Proof.
  intros x v V. pose proof A0 as A. unfold create_features. repeat step1; try failing_. made_now.
Qed.

Lemma create_evaluation_ok : forall xo xc v, valid s0 xo -> valid s0 xc ->
  wp (create_evaluation xo xc v) s0
     (fun h s1 => exists os c, xo = Some os /\ xc = Some c /\
                               made_ s0 e0 T_EVALUATION (PEvaluation os c) h s1)
     (failed_ s0 e0).
Proof.
  intros. pose proof A0 as A. unfold create_evaluation. repeat step1; try failing_. made_now.
Qed.

Lemma create_tree_evaluation_ok : forall xo xc v, valid s0 xo -> valid s0 xc ->
  wp (create_tree_evaluation xo xc v) s0
     (fun h s1 => exists os c, xo = Some os /\ xc = Some c /\
                               made_ s0 e0 T_TREE_EVALUATION (PEvaluation os c) h s1)
     (failed_ s0 e0).
Proof.
  intros. pose proof A0 as A. unfold create_tree_evaluation. repeat step1; try failing_. made_now.
Qed.

Lemma create_features_evaluation_ok : forall xo xc xf v, valid s0 xo -> valid s0 xc -> valid s0 xf ->
  wp (create_features_evaluation xo xc xf v) s0
     (fun h s1 => exists os c f, xo = Some os /\ xc = Some c /\ xf = Some f /\
                               made_ s0 e0 T_FEATURES_EVALUATION (PFeaturesEvaluation os c f) h s1)
     (failed_ s0 e0).
Proof.
  intros. pose proof A0 as A. unfold create_features_evaluation. repeat step1; try failing_. made_now.
Qed.

Lemma create_tree_configuration_ok : forall x null, valid s0 x ->
  wp (create_tree_configuration x null) s0
     (fun h s1 => exists t, x = Some t /\ made_ s0 e0 T_TREE_CONFIGURATION (PConfiguration t) h s1)
     (failed_ s0 e0).
Proof.
  intros. pose proof A0 as A. unfold create_tree_configuration. repeat step1; try failing_. made_now.
Qed.

Lemma create_random_tuner_ok : forall xc xo, valid s0 xc -> valid s0 xo ->
  wp (create_random_tuner xc xo) s0
     (fun h s1 => exists cs os, xc = Some cs /\ xo = Some os /\
                               made_ s0 e0 T_TUNER (PTuner cs os []) h s1)
     (failed_ s0 e0).
Proof.
  intros. pose proof A0 as A. unfold create_random_tuner. repeat step1; try failing_. made_now.
Qed.

Lemma create_random_tree_tuner_ok : forall xc xo, valid s0 xc -> valid s0 xo ->
  wp (create_random_tree_tuner xc xo) s0
     (fun h s1 => exists cs os, xc = Some cs /\ xo = Some os /\
                               made_ s0 e0 T_TREE_TUNER (PTuner cs os []) h s1)
     (failed_ s0 e0).
Proof.
  intros. pose proof A0 as A. unfold create_random_tree_tuner. repeat step1; try failing_. made_now.
Qed.

Lemma create_random_features_tuner_ok : forall xc xf xo, valid s0 xc -> valid s0 xf -> valid s0 xo ->
  wp (create_random_features_tuner xc xf xo) s0
     (fun h s1 => exists cs fs os, xc = Some cs /\ xf = Some fs /\ xo = Some os /\
                               made_ s0 e0 T_FEATURES_TUNER (PFeaturesTuner cs os fs []) h s1)
     (failed_ s0 e0).
Proof.
  intros. pose proof A0 as A. unfold create_random_features_tuner. repeat step1; try failing_. made_now.
Qed.

Lemma create_user_tuner_ok : forall xc xo null code, valid s0 xc -> valid s0 xo ->
  wp (create_user_tuner xc xo null code) s0
     (fun h s1 => exists cs os, xc = Some cs /\ xo = Some os /\
                               made_ s0 e0 T_TUNER (PUserTuner code cs os) h s1)
     (failed_ s0 e0).
Proof.
  intros. pose proof A0 as A. unfold create_user_tuner. repeat step1; try failing_. made_now.
Qed.

Lemma create_user_tree_tuner_ok : forall xc xo null code, valid s0 xc -> valid s0 xo ->
  wp (create_user_tree_tuner xc xo null code) s0
     (fun h s1 => exists cs os, xc = Some cs /\ xo = Some os /\
                               made_ s0 e0 T_TREE_TUNER (PUserTuner code cs os) h s1)
     (failed_ s0 e0).
Proof.
  intros. pose proof A0 as A. unfold create_user_tree_tuner. repeat step1; try failing_. made_now.
Qed.

Lemma create_user_features_tuner_ok : forall xc xf xo null code,
  valid s0 xc -> valid s0 xf -> valid s0 xo ->
  wp (create_user_features_tuner xc xf xo null code) s0
     (fun h s1 => exists cs fs os, xc = Some cs /\ xf = Some fs /\ xo = Some os /\
                               made_ s0 e0 T_FEATURES_TUNER (PUserFeaturesTuner code cs os fs) h s1)
     (failed_ s0 e0).
Proof.
  intros. pose proof A0 as A. unfold create_user_features_tuner. repeat step1; try failing_. made_now.
Qed.
End Calls.
