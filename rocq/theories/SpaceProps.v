(** Properties C27-C32: configuration spaces. *)
From Coq Require Import ZArith List Bool Lia.
From Verif Require Import Base Datum CodecModel CmpModel CmpSpec ParamModel ParamSpec ContextModel ContextSpec.
From Verif Require Import ExprModel ExprSpec SpaceModel SpaceSpec SpaceMain.
Import ListNotations.
Open Scope Z_scope.

(** Examples: integer parameters 10 in [0, 5[, 20 and 30 in [0, 9[; distributions 1010,
    1020, 1030 by default, 77 is for two parameters, the others for one; the generator
    counts and every distribution draws the count. *)
Definition slit (z : Z) : expr := ELit (mkObj 1 None) (ccs_int z).
Definition svar (h : Z) : expr := EVar (mkObj 2 None) h.
Definition sop (t : Z) (l : list expr) : expr := EOp (mkObj 3 None) t l.
Definition sh (h : Z) : param :=
  if h =? 10 then mkParam PNUMERICAL [97] (ccs_int 1) (mkInterval NUM_INT 0 5 true false) 0 []
  else if h =? 20 then mkParam PNUMERICAL [98] (ccs_int 2) (mkInterval NUM_INT 0 9 true false) 0 []
  else mkParam PNUMERICAL [99] (ccs_int 3) (mkInterval NUM_INT 0 9 true false) 0 [].
Definition sjen (l : list Z) : Z := lenZ l.
Definition sknown (h : Z) : Prop := h = 10 \/ h = 20 \/ h = 30.
Definition sdim (d : Z) : nat := if d =? 77 then 2%nat else 1%nat.
Definition sdefault (h : Z) : Z := 1000 + Z.abs h.
Definition sdraw (d : Z) (ps : list Z) (g : Z) : res (list datum) * Z := (Ok (map (fun _ => ccs_int g) ps), g + 1).
Definition s3 : space := snd (space_adds sh sdim sdefault (new_space 500 [120]) [(10, None); (20, None); (30, None)]).
Definition is_zero (h : Z) : expr := sop XEQUAL [svar h; slit 0].

(** *** C27 *)
(** A condition is accepted exactly when it mentions parameters of the space only and no
    parameter comes to depend on itself; a refusal changes nothing. *)
Theorem C27_conditions : forall heap jen dimension default_dist rng draw known,
  sound_space heap jen dimension default_dist known ->
  forall S s i e r s', reach heap jen dimension default_dist rng draw known S s -> wf_expr known e ->
  set_condition s i e = (r, s') -> sets_condition s i e r s'.
Proof. exact main_condition. Qed.
Print Assumptions C27_conditions.
(** The order in which parameters are processed has every parameter once, after those its
    condition mentions. *)
Theorem C27_order : forall heap jen dimension default_dist rng draw known,
  sound_space heap jen dimension default_dist known ->
  forall S s, reach heap jen dimension default_dist rng draw known S s ->
  acyclic (s_params s) (s_conds s) /\ NoDup (s_sorted s) /\ dependencies_first (s_params s) (s_conds s) (s_sorted s) /\
  forall i, In i (s_sorted s) <-> (i < length (s_params s))%nat /\ S i.
Proof. exact main_order. Qed.
Print Assumptions C27_order.
Theorem C27_listed : forall s arr i, listed (s_conds s) arr (get_conditions s arr) /\
  match nth_error (s_conds s) (Z.to_nat (wrap 32 i)) with
  | Some c => get_condition s i = Ok c
  | None => get_condition s i = Err ERR_OUT_OF_BOUNDS
  end.
Proof. exact conditions_spec. Qed.
Print Assumptions C27_listed.
Example C27_ex : (* 0 depends on 1, 1 on 2; 2 may not depend on 0, nor on a foreign parameter *)
  let (r1, s) := set_condition s3 0 (is_zero 20) in
  let (r2, s) := set_condition s 1 (is_zero 30) in
  let (r3, s) := set_condition s 2 (sop XOR [is_zero 30; is_zero 10]) in
  let (r4, s) := set_condition s 2 (is_zero 40) in
  let (r5, s) := set_condition s 1 (is_zero 10) in
  [r1; r2; r3; r4; r5] = [Ok tt; Ok tt; Err ERR_INVALID_GRAPH; Err ERR_INVALID_PARAMETER; Err ERR_INVALID_PARAMETER] /\
  get_conditions s (Some 4%nat) = Ok (Some [Some (is_zero 20); Some (is_zero 30); None; None], 3%nat) /\
  s_sorted (snd (ensure_graph s)) = [2%nat; 1%nat; 0%nat].
Proof. vm_compute. repeat split. Qed.

(** *** C28 *)
(** The values the library computes are the only ones with every parameter inactive
    exactly when its condition is not true of those values; there are none exactly when a
    condition cannot be evaluated. *)
Theorem C28_activity : forall heap jen dimension default_dist rng draw known,
  sound_space heap jen dimension default_dist known ->
  forall S s initial, reach heap jen dimension default_dist rng draw known S s ->
  length initial = length (s_params s) -> Forall wf_datum initial ->
  (forall vs, set_actives heap jen s initial = Ok vs <-> solves heap (s_params s) (s_conds s) S initial vs) /\
  ((forall vs, set_actives heap jen s initial <> Ok vs) ->
    unsettled heap (s_params s) (s_conds s) S initial (set_actives heap jen s initial)).
Proof. exact main_actives. Qed.
Print Assumptions C28_activity.
Theorem C28_unique : forall heap jen dimension default_dist rng draw known,
  sound_space heap jen dimension default_dist known ->
  forall S s initial vs vs', reach heap jen dimension default_dist rng draw known S s ->
  length initial = length (s_params s) -> Forall wf_datum initial ->
  solves heap (s_params s) (s_conds s) S initial vs -> solves heap (s_params s) (s_conds s) S initial vs' -> vs = vs'.
Proof. exact main_unique. Qed.
Print Assumptions C28_unique.
Theorem C28_default : forall heap jen dimension default_dist rng draw known,
  sound_space heap jen dimension default_dist known ->
  forall S s, reach heap jen dimension default_dist rng draw known S s ->
  (forall vs, get_default_configuration heap jen s = Ok vs <->
    solves heap (s_params s) (s_conds s) S (defaults heap (s_params s)) vs) /\
  ((forall vs, get_default_configuration heap jen s <> Ok vs) ->
    unsettled heap (s_params s) (s_conds s) S (defaults heap (s_params s)) (get_default_configuration heap jen s)).
Proof. exact main_default. Qed.
Print Assumptions C28_default.
Example C28_ex : (* 1 depends on 2, 0 on 1: inactivity spreads *)
  let s := snd (set_condition (snd (set_condition s3 0 (sop XEQUAL [svar 20; slit 2]))) 1 (is_zero 30)) in
  get_default_configuration sh sjen s = Ok [ccs_inactive; ccs_inactive; ccs_int 3] /\
  set_actives sh sjen s [ccs_int 4; ccs_int 2; ccs_int 0] = Ok [ccs_int 4; ccs_int 2; ccs_int 0] /\
  set_actives sh sjen s [ccs_int 4; ccs_int 1; ccs_int 0] = Ok [ccs_inactive; ccs_int 1; ccs_int 0] /\
  set_actives sh sjen (snd (set_condition s3 0 (sop XLESS [svar 20; ELit (mkObj 1 None) ccs_true]))) [ccs_int 4; ccs_int 1; ccs_int 0] = Err ERR_INVALID_VALUE.
Proof. vm_compute. repeat split. Qed.

(** *** C29 *)
Theorem C29_check : forall heap jen dimension default_dist rng draw known,
  sound_space heap jen dimension default_dist known ->
  forall S s vs r s', reach heap jen dimension default_dist rng draw known S s -> Forall wf_datum vs ->
  check_configuration_values heap jen s vs = (r, s') ->
  checked_values heap (s_params s) (s_conds s) (s_forbidden s) vs r /\
  (r = Ok true <-> valid heap (s_params s) (s_conds s) (s_forbidden s) vs) /\ same_space s s'.
Proof. exact main_check. Qed.
Print Assumptions C29_check.
(** A configuration of another space is refused. *)
Theorem C29_owner : forall heap jen dimension default_dist rng draw known,
  forall S s owner vs, reach heap jen dimension default_dist rng draw known S s ->
  check_configuration heap jen s owner vs =
    (if Z.eq_dec owner (s_self s) then check_configuration_values heap jen s vs else (Err ERR_INVALID_CONFIGURATION, s)).
Proof. exact main_owner. Qed.
Print Assumptions C29_owner.
Example C29_ex :
  let s := snd (set_condition s3 1 (is_zero 10)) in
  let s := snd (add_forbidden_clause sh sjen s (sop XEQUAL [svar 20; svar 30])) in
  let check owner vs := fst (check_configuration sh sjen s owner vs) in
  check 500 [ccs_int 0; ccs_int 5; ccs_int 6] = Ok true /\ check 500 [ccs_int 0; ccs_int 5; ccs_int 5] = Ok false /\
  check 500 [ccs_int 0; ccs_inactive; ccs_int 6] = Ok false /\ check 500 [ccs_int 1; ccs_inactive; ccs_int 6] = Ok true /\
  check 500 [ccs_int 1; ccs_int 5; ccs_int 6] = Ok false /\ check 500 [ccs_int 5; ccs_inactive; ccs_int 6] = Ok false /\
  check 500 [ccs_int 1; ccs_inactive] = Err ERR_INVALID_CONFIGURATION /\
  check 501 [ccs_int 1; ccs_inactive; ccs_int 6] = Err ERR_INVALID_CONFIGURATION.
Proof. vm_compute. repeat split. Qed.

(** *** C30 *)
(** Sampling draws from all distributions, settles the activity and tests the clauses, at
    most 100 times per configuration; whatever it returns is valid. *)
Theorem C30_sample : forall heap jen dimension default_dist rng draw known,
  sound_space heap jen dimension default_dist known -> well_drawn rng draw ->
  forall S s g r g' s', reach heap jen dimension default_dist rng draw known S s ->
  sample heap jen rng draw s g = (r, g', s') ->
  attempts heap (s_params s) (s_conds s) (s_forbidden s) rng draw (s_dists s) 100 g r g' /\ same_space s s'.
Proof. exact main_sample. Qed.
Print Assumptions C30_sample.
Theorem C30_samples : forall heap jen dimension default_dist rng draw known,
  sound_space heap jen dimension default_dist known -> well_drawn rng draw ->
  forall S s n g arr r arr' g' s', reach heap jen dimension default_dist rng draw known S s -> n <> O ->
  samples heap jen rng draw s n g arr = (r, arr', g', s') ->
  exists l, harvest heap (s_params s) (s_conds s) (s_forbidden s) rng draw (s_dists s) (100 * n) n g r l g' /\
    (length l <= n)%nat /\ arr' = map Some l ++ repeat None (n - length l) /\ (r = Ok tt -> length l = n) /\ same_space s s'.
Proof. exact main_samples. Qed.
Print Assumptions C30_samples.
Theorem C30_sampled_valid : forall heap jen dimension default_dist rng draw known,
  sound_space heap jen dimension default_dist known -> well_drawn rng draw ->
  forall S s g vs g' s', drawn_in_domains heap rng draw -> reach heap jen dimension default_dist rng draw known S s ->
  sample heap jen rng draw s g = (Ok vs, g', s') ->
  valid heap (s_params s) (s_conds s) (s_forbidden s) vs /\ check_configuration heap jen s' (s_self s) vs = (Ok true, s').
Proof. exact main_sampled_valid. Qed.
Print Assumptions C30_sampled_valid.
Theorem C30_samples_valid : forall heap jen dimension default_dist rng draw known,
  sound_space heap jen dimension default_dist known -> well_drawn rng draw ->
  forall S s n g arr r arr' g' s', drawn_in_domains heap rng draw ->
  reach heap jen dimension default_dist rng draw known S s -> n <> O ->
  samples heap jen rng draw s n g arr = (r, arr', g', s') ->
  forall vs, In (Some vs) arr' ->
  valid heap (s_params s) (s_conds s) (s_forbidden s) vs /\ check_configuration heap jen s' (s_self s) vs = (Ok true, s').
Proof. exact main_samples_valid. Qed.
Print Assumptions C30_samples_valid.
Example C30_ex : (* the count 2 is forbidden for parameter 30; 10 < 30 is true of the default *)
  let s := snd (set_condition s3 1 (is_zero 10)) in
  let s := snd (add_forbidden_clause sh sjen s (sop XEQUAL [svar 30; slit 2])) in
  let t := snd (add_forbidden_clause sh sjen s (sop XLESS [svar 10; svar 30])) in
  fst (sample sh sjen Z sdraw s 0) = (Ok [ccs_int 3; ccs_inactive; ccs_int 5], 6) /\
  fst (samples sh sjen Z sdraw s 2 0 []) =
    (Ok tt, [Some [ccs_int 3; ccs_inactive; ccs_int 5]; Some [ccs_int 6; ccs_inactive; ccs_int 8]], 9) /\
  t = s.
Proof. vm_compute. repeat split. Qed.
Example C30_unsuccessful_ex : (* all that can be drawn is forbidden *)
  let s := snd (set_condition s3 1 (is_zero 10)) in
  let s := snd (set_distribution sdefault s 77 [0%nat; 2%nat]) in
  let s := snd (add_forbidden_clause sh sjen s (sop XEQUAL [svar 10; svar 30])) in
  fst (sample sh sjen Z sdraw s 0) = (Err ERR_SAMPLING_UNSUCCESSFUL, 200) /\
  fst (samples sh sjen Z sdraw s 2 0 []) = (Err ERR_SAMPLING_UNSUCCESSFUL, [None; None], 400).
Proof. vm_compute. repeat split. Qed.

(** *** C31 *)
(** A clause is accepted exactly when it is not true of the default configuration. *)
Theorem C31_clause : forall heap jen dimension default_dist rng draw known,
  sound_space heap jen dimension default_dist known ->
  forall S s e r s', reach heap jen dimension default_dist rng draw known S s -> wf_expr known e ->
  add_forbidden_clause heap jen s e = (r, s') -> adds_clause heap S s e r s'.
Proof. exact main_clause. Qed.
Print Assumptions C31_clause.
Theorem C31_clauses : forall heap jen dimension default_dist rng draw known,
  sound_space heap jen dimension default_dist known ->
  forall S s l r s', reach heap jen dimension default_dist rng draw known S s -> Forall (wf_expr known) l ->
  add_forbidden_clauses heap jen s l = (r, s') -> adds_clauses heap S s l r s'.
Proof. exact main_clauses. Qed.
Print Assumptions C31_clauses.
Theorem C31_listed : forall s arr i, listed (map Some (s_forbidden s)) arr (get_forbidden_clauses s arr) /\
  match nth_error (s_forbidden s) (Z.to_nat (wrap 32 i)) with
  | Some c => get_forbidden_clause s i = Ok c
  | None => get_forbidden_clause s i = Err ERR_OUT_OF_BOUNDS
  end.
Proof. exact clauses_listed. Qed.
Print Assumptions C31_listed.
(** Whatever parameters and conditions are added after the clauses, no clause becomes true
    of the default configuration. *)
Theorem C31_default_not_forbidden : forall heap jen dimension default_dist rng draw known,
  sound_space heap jen dimension default_dist known ->
  forall s vs, reach heap jen dimension default_dist rng draw known everything s ->
  get_default_configuration heap jen s = Ok vs ->
  forall e, In e (s_forbidden s) -> ~ holds heap (s_params s) vs e.
Proof. exact main_not_forbidden. Qed.
Print Assumptions C31_default_not_forbidden.
(** It is accepted, unless a default is not in its domain or a clause cannot be evaluated. *)
Theorem C31_default_valid : forall heap jen dimension default_dist rng draw known,
  sound_space heap jen dimension default_dist known ->
  forall s vs r s', reach heap jen dimension default_dist rng draw known everything s ->
  get_default_configuration heap jen s = Ok vs ->
  (forall h, In h (s_params s) ->
     d_val (p_default (heap h)) <> VInactive /\ domain (heap h) (d_val (p_default (heap h)))) ->
  check_configuration heap jen s (s_self s) vs = (r, s') ->
  r = Ok true \/ exists e, In e (s_forbidden s) /\ stuck heap (s_params s) vs e r.
Proof. exact main_default_valid. Qed.
Print Assumptions C31_default_valid.
Example C31_ex : (* 30 > 20 is true of the default; once 20 is inactive it is no longer *)
  let (r1, s) := add_forbidden_clauses sh sjen s3 [is_zero 20; sop XLESS [svar 30; svar 20]; sop XLESS [svar 20; svar 30]; is_zero 10] in
  let (r2, s) := add_forbidden_clause sh sjen s (is_zero 40) in
  let (r3, s) := set_condition s 1 (is_zero 10) in
  let (r4, s) := add_forbidden_clause sh sjen s (sop XLESS [svar 20; svar 30]) in
  [r1; r2; r3; r4] = [Err ERR_INVALID_CONFIGURATION; Err ERR_INVALID_PARAMETER; Ok tt; Ok tt] /\
  get_forbidden_clauses s (Some 4%nat) =
    Ok (Some [Some (is_zero 20); Some (sop XLESS [svar 30; svar 20]); Some (sop XLESS [svar 20; svar 30]); None], 3%nat) /\
  get_default_configuration sh sjen s = Ok [ccs_int 1; ccs_inactive; ccs_int 3] /\
  fst (check_configuration sh sjen s 500 [ccs_int 1; ccs_inactive; ccs_int 3]) = Ok true.
Proof. vm_compute. repeat split. Qed.

Lemma sh_sound : sound_space sh sjen sdim sdefault sknown.
Proof.
  assert (N : forall c, is_char c -> ok_name [c]) by (intros c H; split; [constructor; [exact H|constructor]|reflexivity]).
  assert (M : forall x, -100 <= x <= 100 -> machine NUM_INT x) by (intros x H; change (in_signed 64 x); unfold in_signed; lia).
  split; [|split].
  - intros h [-> |[-> | ->]].
    + apply (created_numerical sjen [97] NUM_INT 0 5 0 1); try (apply M; lia); [apply N; unfold is_char; lia|reflexivity].
    + apply (created_numerical sjen [98] NUM_INT 0 9 0 2); try (apply M; lia); [apply N; unfold is_char; lia|reflexivity].
    + apply (created_numerical sjen [99] NUM_INT 0 9 0 3); try (apply M; lia); [apply N; unfold is_char; lia|reflexivity].
  - intros h [-> |[-> | ->]]; reflexivity.
  - intro h. unfold sdim, sdefault. destruct (Z.eqb_spec (1000 + Z.abs h) 77); [lia|reflexivity].
Qed.
Definition sreach := reach sh sjen sdim sdefault Z sdraw sknown.
Lemma s3_reach : exists S, sreach S s3 /\ forall i, (i < 3)%nat -> S i.
Proof.
  set (s0 := new_space 500 [120]). set (s1 := snd (space_add sh sdim sdefault s0 10 None)). set (s2 := snd (space_add sh sdim sdefault s1 20 None)).
  assert (K : sknown 10 /\ sknown 20 /\ sknown 30) by (unfold sknown; auto). destruct K as (K1 & K2 & K3).
  pose proof (re_new sh sjen sdim sdefault Z sdraw sknown 500 [120]) as R0.
  pose proof (re_add sh sjen sdim sdefault Z sdraw sknown _ s0 10 None 0 s1 R0 K1 eq_refl ltac:(vm_compute; reflexivity)) as R1.
  pose proof (re_add sh sjen sdim sdefault Z sdraw sknown _ s1 20 None 0 s2 R1 K2 ltac:(vm_compute; reflexivity) ltac:(vm_compute; reflexivity)) as R2.
  pose proof (re_add sh sjen sdim sdefault Z sdraw sknown _ s2 30 None 0 s3 R2 K3 ltac:(vm_compute; reflexivity) ltac:(vm_compute; reflexivity)) as R3.
  eexists. split; [exact R3|].
  intros i _. left. left. left. exact Logic.I.
Qed.
Ltac swf := match goal with
  | |- wf_expr _ (is_zero _) => unfold is_zero; swf
  | |- wf_expr _ (sop _ _) => apply wf_op; [unfold takes, XEQUAL, XLESS, XIN, XLIST; cbn; lia|repeat (constructor; [swf|]); constructor]
  | |- wf_expr _ (svar _) => apply wf_var; unfold sknown; auto
  | |- wf_expr _ (slit _) => apply wf_lit; [exact Logic.I|vm_compute; intuition discriminate|reflexivity]
  end.

(** The default configuration may be invalid after a condition was refused because of a
    cycle, as long as the space is neither checked, sampled, nor given another condition;
    the check itself recomputes the graph. *)
Theorem C31_default_valid_refuted : exists heap jen dimension default_dist rng draw known S s vs,
  sound_space heap jen dimension default_dist known /\ reach heap jen dimension default_dist rng draw known S s /\
  (forall h, In h (s_params s) -> domain (heap h) (d_val (p_default (heap h)))) /\
  get_default_configuration heap jen s = Ok vs /\
  fst (check_configuration heap jen s (s_self s) vs) = Ok false.
Proof.
  destruct s3_reach as (S0 & R & _).
  set (s4 := snd (set_condition s3 1 (is_zero 10))). set (s5 := snd (set_condition s4 0 (is_zero 20))).
  assert (R4 : sreach everything s4).
  { refine (re_condition _ _ _ _ _ _ _ _ s3 1 (is_zero 10) s4 R _ _); [swf|vm_compute; reflexivity]. }
  exists sh, sjen, sdim, sdefault, Z, sdraw, sknown, (fun j => ~ tangled (s_params s4) [Some (is_zero 20); Some (is_zero 10); None] j), s5, [ccs_int 1; ccs_int 2; ccs_int 3].
  split; [exact sh_sound|]. split.
  { refine (re_cycle _ _ _ _ _ _ _ _ s4 0 (is_zero 20) s5 _ R4 _ _ _); [swf|vm_compute; reflexivity|].
    split; [reflexivity|]. split; [reflexivity|]. intros [|j] J; [destruct J; reflexivity|reflexivity]. }
  split; [|split; vm_compute; reflexivity].
  intros h H. cbn in H. destruct H as [<- |[<- |[<- | []]]].
  - exists 1, 0, 1, 5. vm_compute. intuition discriminate.
  - exists 2, 0, 2, 9. vm_compute. intuition discriminate.
  - exists 3, 0, 3, 9. vm_compute. intuition discriminate.
Qed.
Print Assumptions C31_default_valid_refuted.
(** A clause may become impossible to evaluate on the default configuration: 10 IN [20; 7]
    is an error once 20 is inactive. *)
Theorem C31_clause_error_refuted : exists heap jen dimension default_dist rng draw known s vs,
  sound_space heap jen dimension default_dist known /\ reach heap jen dimension default_dist rng draw known everything s /\
  get_default_configuration heap jen s = Ok vs /\
  fst (check_configuration heap jen s (s_self s) vs) = Err ERR_INVALID_VALUE.
Proof.
  destruct s3_reach as (S0 & R & _). set (e := sop XIN [svar 10; sop XLIST [svar 20; slit 7]]).
  set (s4 := snd (add_forbidden_clause sh sjen s3 e)). set (s5 := snd (set_condition s4 1 (is_zero 10))).
  assert (We : wf_expr sknown e) by (unfold e; swf).
  exists sh, sjen, sdim, sdefault, Z, sdraw, sknown, s5, [ccs_int 1; ccs_inactive; ccs_int 3].
  split; [exact sh_sound|]. split; [|split; vm_compute; reflexivity].
  refine (re_condition _ _ _ _ _ _ _ _ s4 1 (is_zero 10) s5 (re_clause _ _ _ _ _ _ _ _ s3 e (Ok tt) s4 R We _) _ _);
    [vm_compute; reflexivity|swf|vm_compute; reflexivity].
Qed.
Print Assumptions C31_clause_error_refuted.

(** *** C32 *)
Theorem C32_partition : forall heap jen dimension default_dist rng draw known,
  sound_space heap jen dimension default_dist known ->
  forall S s, reach heap jen dimension default_dist rng draw known S s ->
  partitioned s /\ attached s /\ Forall (fun w => length (dw_indexes w) = dimension (dw_dist w)) (s_dists s).
Proof. exact main_partition. Qed.
Print Assumptions C32_partition.
Theorem C32_set_distribution : forall heap jen dimension default_dist rng draw known,
  sound_space heap jen dimension default_dist known ->
  forall S s d indexes r s', reach heap jen dimension default_dist rng draw known S s -> length indexes = dimension d ->
  set_distribution default_dist s d indexes = (r, s') -> sets_distribution default_dist s d indexes r s'.
Proof. exact main_distribution. Qed.
Print Assumptions C32_set_distribution.
Theorem C32_add : forall heap jen dimension default_dist rng draw known,
  sound_space heap jen dimension default_dist known ->
  forall S s h d r s', reach heap jen dimension default_dist rng draw known S s -> known h -> lenZ (s_params s) + 1 < 2 ^ 32 ->
  space_add heap dimension default_dist s h d = (r, s') -> adds_parameter heap dimension default_dist s h d r s'.
Proof. exact main_add. Qed.
Print Assumptions C32_add.
Theorem C32_adds : forall heap jen dimension default_dist rng draw known,
  sound_space heap jen dimension default_dist known ->
  forall l S s r s', reach heap jen dimension default_dist rng draw known S s -> Forall (fun hd => known (fst hd)) l ->
  lenZ (s_params s) + lenZ l < 2 ^ 32 -> space_adds heap dimension default_dist s l = (r, s') ->
  adds_parameters heap dimension default_dist s l r s' /\
  exists S', reach heap jen dimension default_dist rng draw known S' s'.
Proof. exact main_adds. Qed.
Print Assumptions C32_adds.
Example C32_ex :
  let s := snd (set_distribution sdefault s3 77 [2%nat; 0%nat]) in
  let t := snd (set_distribution sdefault s 88 [0%nat]) in
  map sampled_by (s_dists s3) = [(1010, [0%nat]); (1020, [1%nat]); (1030, [2%nat])] /\
  map sampled_by (s_dists s) = [(1020, [1%nat]); (77, [2%nat; 0%nat])] /\
  get_parameter_distribution s 0 = Ok (77, 1%nat) /\ get_parameter_distribution s 3 = Err ERR_OUT_OF_BOUNDS /\
  map sampled_by (s_dists t) = [(1020, [1%nat]); (88, [0%nat]); (1030, [2%nat])] /\
  get_parameter_distribution t 2 = Ok (1030, 0%nat) /\
  fst (set_distribution sdefault s 77 [1%nat; 1%nat]) = ERR_INVALID_VALUE /\
  fst (space_add sh sdim sdefault s3 30 (Some 5)) = ERR_INVALID_PARAMETER /\
  fst (space_add sh sdim sdefault (new_space 1 []) 30 (Some 77)) = ERR_INVALID_DISTRIBUTION.
Proof. vm_compute. repeat split. Qed.
