(** Properties C44, C45: the lifetimes of objects. *)
From Coq Require Import ZArith List Bool Lia.
From Verif Require Import Base LifeModel LifeSpec LifeEffects LifeHistory.
Import ListNotations.
Open Scope Z_scope.

(** C44: counts are the references, and everything referenced is alive and of the
    expected type *)
Theorem C44_counted : forall s app lost, history s app lost ->
  counted s (fun x => app x + lost x) /\ sound s /\ forall x, 0 <= app x /\ 0 <= lost x.
Proof. exact history_counted. Qed.
Print Assumptions C44_counted.

(** no call of a correct application uses freed memory or diverges: the only thing that
    can go wrong is a count that does not fit in 32 bits *)
Theorem C44_defined : forall s app lost o, history s app lost -> allowed s app o ->
  (exists code given s1, step o s = Done (code, given) s1) \/ step o s = Undef UBOverflow.
Proof. exact in_defined_or. Qed.
Print Assumptions C44_defined.
Theorem C44_room : forall s app lost o, history s app lost -> allowed s app o ->
  (forall h x, live s h x -> o_ref x + takes o <= 2 ^ 31 - 1) -> takes o < 2 ^ 31 - 1 ->
  exists code given s1, step o s = Done (code, given) s1.
Proof. exact in_defined. Qed.
Print Assumptions C44_room.

(** what every call does *)
Theorem C44_outcome : forall s app lost o code given s1, history s app lost -> allowed s app o ->
  step o s = Done (code, given) s1 -> outcome s (fun x => app x + lost x) o code given s1.
Proof. exact (fun s app lost o code given s1 H => in_outcome s app lost H o code given s1). Qed.
Print Assumptions C44_outcome.
(** in particular releasing destroys exactly what nothing keeps any more *)
Theorem C44_release : forall s app lost h code given s1, history s app lost -> 0 < app h ->
  step (ORelease (Some h)) s = Done (code, given) s1 ->
  let left x := app x + lost x - is x h in
  given = [] /\ release_code s left h code /\ releases s left s1.
Proof. exact in_release. Qed.
Print Assumptions C44_release.

(** what an application can reach from its references is alive *)
Theorem C44_reached : forall s app lost y x, history s app lost -> 0 < app y -> reaches s y x -> alive s x.
Proof. exact history_reached. Qed.
Print Assumptions C44_reached.
(** what is alive is reached from a reference of the application or a mislaid one, or
    from an object that owns itself *)
Theorem C44_kept_by : forall s app lost x, history s app lost -> alive s x ->
  exists y, reaches s y x /\ (0 < app y \/ 0 < lost y \/ exists z, holder s y z /\ reaches s z y).
Proof. exact history_kept_by. Qed.
Print Assumptions C44_kept_by.
Theorem C44_gone : forall s app lost, history s app lost -> (forall x, app x = 0 /\ lost x = 0) ->
  ~ cyclic s -> forall h, ~ alive s h.
Proof. exact history_gone. Qed.
Print Assumptions C44_gone.

(** each object lives, then is destroyed once, its callbacks in reverse order of
    registration; nothing is seen of it before, nor afterwards *)
Theorem C44_destiny : forall s app lost o code given s1, history s app lost -> allowed s app o ->
  step o s = Done (code, given) s1 -> destiny s o code s1.
Proof. exact in_destiny. Qed.
Print Assumptions C44_destiny.
Theorem C44_log : forall s app lost, history s app lost -> forall h,
  (alive s h -> about h (s_log s) = []) /\
  ((size s <= h)%nat -> about h (s_log s) = []) /\
  ((h < size s)%nat -> ~ alive s h -> exists x, about h (s_log s) = farewell h x /\ destroyed s h x).
Proof. exact history_log. Qed.
Print Assumptions C44_log.

(** C45: which calls succeed *)
Theorem C45_accepts : forall s app lost o code given s1, history s app lost -> allowed s app o ->
  step o s = Done (code, given) s1 ->
  (code = CCS_RESULT_SUCCESS -> accepted s (fun x => app x + lost x) o) /\
  (s_mem s = [] -> accepted s (fun x => app x + lost x) o -> code = CCS_RESULT_SUCCESS).
Proof. exact (fun s app lost o code given s1 H => in_accepts s app lost H o code given s1). Qed.
Print Assumptions C45_accepts.
Theorem C45_code : forall s app lost o code given s1, history s app lost -> allowed s app o ->
  step o s = Done (code, given) s1 -> code = CCS_RESULT_SUCCESS \/ code < 0.
Proof. exact in_code. Qed.
Print Assumptions C45_code.
(** and the ones that fail leave everything as it was, memory shortages included *)
Theorem C45_restores : forall s app lost o code given s1, history s app lost -> allowed s app o ->
  step o s = Done (code, given) s1 -> code < 0 -> restores s o -> given = [] /\ undisturbed s s1.
Proof. exact in_restores. Qed.
Print Assumptions C45_restores.

(** ** Examples *)

Fixpoint play (l : list op) (s : st) : list (Z * list handle) * st :=
  match l with
  | [] => ([], s)
  | o :: l' => match step o s with
               | Done r s1 => let (rs, s2) := play l' s1 in (r :: rs, s2)
               | _ => ([], s)
               end
  end.

Ltac lives := eexists; split; [vm_compute; reflexivity|vm_compute; reflexivity].
Ltac legal := cbn [allowed valid valid_datum mine]; repeat split; first [exact Logic.I|lives|vm_compute; tauto].
Ltac next H c := eapply (continues _ _ _ c) in H; [|legal|vm_compute; reflexivity].

(** A parameter (0) in a space (2, with its generator 1 and a default distribution
    3) of which there is a configuration (4): the space outlives its last
    reference because of the configuration, and the parameter because of the
    space. *)
Definition life : list op :=
  [OPlain T_PARAMETER; OSpace; OAddParameter (Some 2%nat) (Some 0%nat) None None true;
   OCallback (Some 0%nat) 5 50; OCallback (Some 0%nat) 6 60; OCallback (Some 2%nat) 7 70;
   OConfiguration (Some 2%nat) (VArray [None]); ORelease (Some 0%nat); ORelease (Some 2%nat)].
Example life_codes : fst (play (life ++ [ORelease (Some 4%nat)]) (start [])) =
  [(0, [0%nat]); (0, [2%nat]); (0, []); (0, []); (0, []); (0, []); (0, [4%nat]); (0, []); (0, []); (0, [])].
Proof. vm_compute. reflexivity. Qed.
Example life_before : map (fun e => match e with Some o => o_ref o | None => 0 end) (s_objs (snd (play life (start [])))) = [1; 1; 1; 1; 1].
Proof. vm_compute. reflexivity. Qed.
Example life_after : s_log (snd (play (life ++ [ORelease (Some 4%nat)]) (start []))) =
  [ECallback 2 7 70; ECallback 0 6 60; ECallback 0 5 50; EFree 0; EFree 3; EFree 1; EFree 2; EFree 4]%nat.
Proof. vm_compute. reflexivity. Qed.
Example life_history : exists app lost, history (snd (play life (start []))) app lost /\
  app 4%nat = 1 /\ forall x, x <> 4%nat -> app x = 0 /\ lost x = 0.
Proof.
  pose proof (begins []) as H.
  next H (OPlain T_PARAMETER). next H OSpace. next H (OAddParameter (Some 2%nat) (Some 0%nat) None None true).
  next H (OCallback (Some 0%nat) 5 50). next H (OCallback (Some 0%nat) 6 60). next H (OCallback (Some 2%nat) 7 70).
  next H (OConfiguration (Some 2%nat) (VArray [None])). next H (ORelease (Some 0%nat)). next H (ORelease (Some 2%nat)).
  eexists. eexists. split; [exact H|]. split; [vm_compute; reflexivity|].
  intros [|[|[|[|[|x]]]]] N; try (vm_compute; auto; fail); try congruence.
Qed.

(** ** What does not hold *)

(** C44: a map that contains itself is never destroyed. *)
Theorem C44_cycle_refuted : exists s app lost, history s app lost /\
  (forall x, app x = 0 /\ lost x = 0) /\ alive s 0%nat.
Proof.
  pose proof (begins []) as H.
  next H OMap. next H (OMapSet (Some 0%nat) 7 MOther (MObject (Some 0%nat)) false). next H (ORelease (Some 0%nat)).
  eexists. eexists. eexists. split; [exact H|]. split; [|lives].
  intros [|x]; vm_compute; auto.
Qed.
Print Assumptions C44_cycle_refuted.
(** C44: when the del function of a user defined tuner fails, the tuner is
    destroyed (its spaces are released) but never freed. *)
Theorem C44_freed_refuted : exists s app lost, history s app lost /\
  ~ alive s 3%nat /\ (3 < size s)%nat /\ ~ In (EFree 3%nat) (s_log s) /\ look s 3%nat <> None.
Proof.
  pose proof (begins []) as H.
  next H OSpace. next H (OContext false). next H (OUserTuner (Some 1%nat) (Some 2%nat) false (-2)).
  next H (ORelease (Some 3%nat)).
  eexists. eexists. eexists. split; [exact H|]. split; [|split; [vm_compute; lia|split; [|discriminate]]].
  - intros (o & L & P). vm_compute in L. injection L as <-. discriminate.
  - vm_compute. intros [E|[]]. discriminate.
Qed.
Print Assumptions C44_freed_refuted.

(** C45: a configuration refused because of a value keeps a reference to its space. *)
Theorem C45_configuration_refuted : exists s app lost o code given s1, history s app lost /\
  allowed s app o /\ step o s = Done (code, given) s1 /\ code < 0 /\ given = [] /\
  exists x x1, live s 2%nat x /\ live s1 2%nat x1 /\ o_ref x1 = o_ref x + 1.
Proof.
  pose proof (begins []) as H.
  next H (OPlain T_PARAMETER). next H OSpace. next H (OAddParameter (Some 2%nat) (Some 0%nat) None None true).
  eexists. eexists. eexists. exists (OConfiguration (Some 2%nat) (VArray [Some ERR_INVALID_VALUE])). eexists. eexists. eexists.
  split; [exact H|]. split; [legal|]. split; [vm_compute; reflexivity|]. split; [reflexivity|]. split; [reflexivity|].
  eexists. eexists. split; [split; vm_compute; reflexivity|]. split; [split; vm_compute; reflexivity|reflexivity].
Qed.
Print Assumptions C45_configuration_refuted.
(** C45: sampling several configurations in vain leaves a configuration nobody has. *)
Theorem C45_samples_refuted : exists s app lost o code given s1, history s app lost /\
  allowed s app o /\ step o s = Done (code, given) s1 /\ code < 0 /\ given = [] /\
  alive s1 2%nat /\ ~ alive s 2%nat /\ account o code given app 2%nat = 0.
Proof.
  pose proof (begins []) as H. next H OSpace.
  eexists. eexists. eexists. exists (OSamples (Some 1%nat) 1 (repeat TMissed 100)). eexists. eexists. eexists.
  split; [exact H|]. split.
  { split; [lives|]. intros c I. apply repeat_spec in I. discriminate. }
  split; [vm_compute; reflexivity|]. split; [reflexivity|]. split; [reflexivity|]. split; [lives|]. split; [|reflexivity].
  intros (o & L & _). discriminate.
Qed.
Print Assumptions C45_samples_refuted.
(** C45: a tuner told an evaluation and then something else keeps the evaluation
    although the call fails. *)
Theorem C45_tell_refuted : exists s app lost o code given s1, history s app lost /\
  allowed s app o /\ step o s = Done (code, given) s1 /\ code < 0 /\
  data s 5%nat = Some (PTuner 1%nat 2%nat []) /\ data s1 5%nat = Some (PTuner 1%nat 2%nat [4%nat]).
Proof.
  pose proof (begins []) as H.
  next H OSpace. next H (OContext false). next H (OConfiguration (Some 1%nat) (VNull 0)).
  next H (OEvaluation (Some 2%nat) (Some 3%nat) (VNull 0)). next H (ORandomTuner (Some 1%nat) (Some 2%nat)).
  eexists. eexists. eexists. exists (OTell T_TUNER (Some 5%nat) [(Some 4%nat, true); (Some 1%nat, true)]). eexists. eexists. eexists.
  split; [exact H|]. split.
  { split; [now left|]. split; [vm_compute; reflexivity|]. repeat constructor; lives. }
  split; [vm_compute; reflexivity|]. split; [reflexivity|]. split; reflexivity.
Qed.
Print Assumptions C45_tell_refuted.
(** C45: when memory runs out at the wrong moment, setting a distribution fails and
    keeps a reference to it. *)
Theorem C45_distribution_refuted : exists s app lost mem o code given s1, history s app lost /\
  allowed s app o /\ step o (mkSt (s_objs s) (s_log s) mem) = Done (code, given) s1 /\ code < 0 /\ given = [] /\
  exists x x1, live s 9%nat x /\ live s1 9%nat x1 /\ o_ref x1 = o_ref x + 1.
Proof.
  pose proof (begins []) as H.
  next H (OPlain T_PARAMETER). next H (OPlain T_PARAMETER). next H OSpace.
  next H (OAddParameter (Some 3%nat) (Some 0%nat) None None true). next H (OAddParameter (Some 3%nat) (Some 1%nat) None None true).
  next H (OPlain T_DISTRIBUTION). next H (OPlain T_DISTRIBUTION).
  eapply (continues _ _ _ (OMultivariate [Some 6%nat; Some 7%nat])) in H; [|repeat constructor; lives|vm_compute; reflexivity].
  eapply (continues _ _ _ (OSetDistribution (Some 3%nat) (Some 8%nat) [0; 1]%nat)) in H;
    [|split; [vm_compute; reflexivity|split; [lives|split; [discriminate|reflexivity]]]|vm_compute; reflexivity].
  next H (OPlain T_DISTRIBUTION).
  eexists. eexists. eexists. exists [true; true; false]. exists (OSetDistribution (Some 3%nat) (Some 9%nat) [0]%nat). eexists. eexists. eexists.
  split; [exact H|]. split; [split; [vm_compute; reflexivity|split; [lives|split; [discriminate|reflexivity]]]|].
  split; [vm_compute; reflexivity|]. split; [reflexivity|]. split; [reflexivity|].
  eexists. eexists. split; [split; vm_compute; reflexivity|]. split; [split; vm_compute; reflexivity|reflexivity].
Qed.
Print Assumptions C45_distribution_refuted.
(** C45, an example: an evaluation that is refused leaves the counts alone *)
Example C45_evaluation_ex :
  let ops := [OPlain T_PARAMETER; OContext false; OContextAddParameter false (Some 1%nat) (Some 0%nat) None; OSpace;
              OConfiguration (Some 3%nat) (VNull 0)] in
  let (r, s) := play ops (start []) in
  let (r1, s1) := play (ops ++ [OEvaluation (Some 1%nat) (Some 4%nat) (VArray [Some ERR_INVALID_VALUE])]) (start []) in
  r1 = r ++ [(ERR_INVALID_VALUE, [])] /\ s1 = s /\
  map (fun e => match e with Some o => o_ref o | None => 0 end) (s_objs s) = [2; 1; 1; 2; 1].
Proof. vm_compute. auto. Qed.
