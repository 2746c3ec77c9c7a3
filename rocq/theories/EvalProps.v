(** Properties C46, C49, C50, C66: evaluations and the spaces of their values. *)
From Coq Require Import ZArith List Bool Lia.
From Verif Require Import Base Datum FloatModel CmpModel CmpSpec ParamModel ParamSpec ContextModel ContextSpec ExprModel ExprSpec EvalModel EvalSpec EvalArraySpec EvalProofs EvalOrder EvalFacts TunerSpec.
From Verif Require Import ContextProofs.
Import ListNotations.
Open Scope Z_scope.

(** C46: a comparison answers what the objectives say, without ambiguity *)
Theorem C46_compare : forall heap jen w feat a b, (forall f, wf_binding (w_features w f)) ->
  compares heap jen feat w a b (compare heap jen w feat a b).
Proof. exact compare_spec. Qed.
Print Assumptions C46_compare.
Theorem C46_unambiguous : forall heap jen feat w a b r r',
  compares heap jen feat w a b r -> compares heap jen feat w a b r' -> r = r'.
Proof. exact compares_func. Qed.
Print Assumptions C46_unambiguous.
Theorem C46_swap : forall heap jen feat w a b r, (forall f, wf_binding (w_features w f)) ->
  compare heap jen w feat a b = Ok r -> compare heap jen w feat b a = Ok (if r =? 2 then 2 else - r).
Proof. exact compare_swap. Qed.
Print Assumptions C46_swap.
(** between successful evaluations of a space whose objectives have values that are not
    NaN, the answers are exactly dominance and ties, which are a strict order and the
    equivalence that goes with it *)
Theorem C46_order : forall heap jen feat w s, (forall f, wf_binding (w_features w f)) ->
  let fine e := ev_space (w_eval w e) = s /\ ok_result w e /\ assessed heap jen w e in
  let dom := dominates heap jen feat w in let tie := tied heap jen feat w in
  (forall a b, fine a -> fine b -> let r := compare heap jen w feat a b in
     (r = Ok (-1) /\ dom a b) \/ (r = Ok 1 /\ dom b a) \/ (r = Ok 0 /\ tie a b) \/ (r = Ok 2 /\ ~ dom a b /\ ~ dom b a /\ ~ tie a b)) /\
  (forall a b, fine a -> fine b -> dom a b -> ~ dom b a /\ ~ tie b a /\ ~ tie a b) /\
  (forall a b, fine a -> fine b -> tie a b -> tie b a) /\
  (forall a b c, fine a -> fine b -> fine c ->
     (dom a b -> dom b c -> dom a c) /\ (tie a b -> tie b c -> tie a c) /\ (tie a b -> dom b c -> dom a c) /\ (dom a b -> tie b c -> dom a c)).
Proof. exact compare_order. Qed.
Print Assumptions C46_order.

(** Two numerical parameters a and b in [0, 5), objectives: minimise a, maximise b *)
Definition one : Z := 0x3ff0000000000000.
Definition two : Z := 0x4000000000000000.
Definition four : Z := 0x4010000000000000.
Definition a_nan : Z := 0x7ff8000000000000.
Definition eh (h : Z) : param :=
  mkParam PNUMERICAL [if h =? 10 then 97 else 98] (ccs_float one) (CodecModel.mkInterval CodecModel.NUM_FLOAT 0 0x4014000000000000 true false) 0 [].
Definition ejen (l : list Z) : Z := lenZ l.
Definition ectx : context := push_parameter eh (push_parameter eh (new_context [111]) 10) 20.
Definition var (h : Z) : expr := EVar (mkObj h None) h.
Definition espace : space := mkSpace OT_OBJECTIVE_SPACE ectx [(var 10, MINIMIZE); (var 20, MAXIMIZE)].
Definition fspace : space := mkSpace OT_FEATURES_SPACE ectx [].
Definition eval_of (e : Z) : evaluation :=
  match e with
  | 1 => mkEvaluation 600 [ccs_float one; ccs_float four] 31 41 0
  | 2 => mkEvaluation 600 [ccs_float two; ccs_float one] 32 41 0
  | 3 => mkEvaluation 600 [ccs_float four; ccs_float (four + 1)] 33 42 0
  | 4 => mkEvaluation 600 [ccs_float one; ccs_float four] 34 42 0
  | 5 => mkEvaluation 600 [ccs_float a_nan; ccs_float four] 35 41 0
  | 6 => mkEvaluation 600 [ccs_float 0; ccs_float two] 36 42 (-1)
  | 7 => mkEvaluation 700 [ccs_float one; ccs_float four] 37 41 0
  | _ => mkEvaluation 600 [ccs_float one; ccs_int 4] 38 41 0
  end.
Definition features_of (f : Z) : binding := if f =? 41 then mkBinding 900 [ccs_float one; ccs_float one] else mkBinding 900 [ccs_float two; ccs_float one].
Definition ew : world := mkWorld (fun h => if h =? 900 then fspace else espace) eval_of features_of.
Lemma ew_wf : forall f, wf_binding (w_features ew f).
Proof.
  intro f. cbn. unfold features_of. destruct (f =? 41); split; cbn [b_values b_context];
    try (unfold in_unsigned; lia); repeat constructor; vm_compute; intuition discriminate.
Qed.
Example C46_ex : let cmp := compare eh ejen ew false in
  cmp 1 2 = Ok BETTER /\ cmp 2 1 = Ok WORSE /\ cmp 1 4 = Ok EQUIVALENT /\ cmp 1 3 = Ok NOT_COMPARABLE /\
  cmp 1 8 = Ok NOT_COMPARABLE /\ cmp 1 6 = Err ERR_INVALID_OBJECT /\ cmp 1 7 = Err ERR_INVALID_OBJECT /\
  compare eh ejen ew true 1 4 = Ok NOT_COMPARABLE /\ assessed eh ejen ew 1 /\ ~ assessed eh ejen ew 5.
Proof.
  cbv zeta. do 8 (split; [vm_compute; reflexivity|]). split.
  - intros o [<- |[<- |[]]]; eexists; (split; [vm_compute; reflexivity|]); (split; [vm_compute; intuition discriminate|]); intros (f & E & K); injection E as <-; vm_compute in K; discriminate.
  - intro A. destruct (A (var 10, MINIMIZE) ltac:(now left)) as (d & E & _ & N). vm_compute in E. injection E as <-. apply N. exists a_nan. split; [reflexivity|vm_compute; reflexivity].
Qed.
(** With NaN, being equivalent is not transitive *)
Theorem C46_nan_refuted : exists heap jen w a b c,
  compare heap jen w false a b = Ok EQUIVALENT /\ compare heap jen w false b c = Ok EQUIVALENT /\ compare heap jen w false a c = Ok BETTER.
Proof.
  pose (ev := fun e : Z => mkEvaluation 600 [ccs_float (if e =? 1 then one else if e =? 2 then a_nan else two); ccs_float four] 0 0 0).
  exists eh, ejen, (mkWorld (fun _ => espace) ev features_of), 1, 2, 3. vm_compute. auto.
Qed.
Print Assumptions C46_nan_refuted.

(** C49: exactly what an array receives: nothing but an error when it is longer than the
    number of objectives, the values when it has exactly the right size; when it is
    shorter, values are written past its end *)
Theorem C49_values : forall heap jen w e arr,
  gives (map (fun o => value_of heap jen w e (fst o)) (objectives w e)) arr (get_objective_values heap jen w e arr).
Proof. exact objective_values_spec. Qed.
Print Assumptions C49_values.
Theorem C49_value : forall heap jen w e i, 0 <= i -> i < 2 ^ 32 ->
  get_objective_value heap jen w e i =
    match nth_error (objectives w e) (Z.to_nat i) with Some o => value_of heap jen w e (fst o) | None => Err ERR_OUT_OF_BOUNDS end.
Proof. exact objective_value_spec. Qed.
Print Assumptions C49_value.
Theorem C49_short_refuted : exists heap jen w e arr,
  Forall (fun o => exists d, value_of heap jen w e (fst o) = Ok d) (objectives w e) /\ (length arr < length (objectives w e))%nat /\
  fst (get_objective_values heap jen w e (Some arr)) = UB UBBounds.
Proof.
  exists eh, ejen, ew, 1, [ccs_none]. split; [|split; [cbn; lia|vm_compute; reflexivity]].
  constructor; [|constructor; [|constructor]]; eexists; vm_compute; reflexivity.
Qed.
Print Assumptions C49_short_refuted.
Theorem C49_long_refuted : exists heap jen w e arr,
  Forall (fun o => exists d, value_of heap jen w e (fst o) = Ok d) (objectives w e) /\ (length (objectives w e) < length arr)%nat /\
  get_objective_values heap jen w e (Some arr) = (Err ERR_INVALID_VALUE, Some arr).
Proof.
  exists eh, ejen, ew, 1, [ccs_none; ccs_none; ccs_none]. split; [|split; [cbn; lia|vm_compute; reflexivity]].
  constructor; [|constructor; [|constructor]]; eexists; vm_compute; reflexivity.
Qed.
Print Assumptions C49_long_refuted.
Example C49_ex : get_objective_values eh ejen ew 1 (Some [ccs_none; ccs_int 3]) = (Ok 2%nat, Some [ccs_float one; ccs_float four]) /\
  get_objective_values eh ejen ew 1 None = (Ok 2%nat, None) /\ get_objective_value eh ejen ew 1 1 = Ok (ccs_float four).
Proof. vm_compute. auto. Qed.

(** C50: evaluations and features are checked value by value *)
Theorem C50_evaluation_values : forall heap jen w h A vs, describes heap (sp_ctx (w_space w h)) A ->
  (forall p, In p A -> created jen (heap p)) -> Forall wf_datum vs -> sp_type (w_space w h) = OT_OBJECTIVE_SPACE ->
  verdict heap A ERR_INVALID_EVALUATION vs (check_evaluation_values heap jen w h vs).
Proof. exact evaluation_values_spec. Qed.
Print Assumptions C50_evaluation_values.
Theorem C50_features : forall heap jen w h f A, describes heap (sp_ctx (w_space w h)) A ->
  (forall p, In p A -> created jen (heap p)) -> Forall wf_datum (b_values (w_features w f)) -> sp_type (w_space w h) = OT_FEATURES_SPACE ->
  (b_context (w_features w f) <> h /\ check_features heap jen w h f = Err ERR_INVALID_FEATURES) \/
  (b_context (w_features w f) = h /\ verdict heap A ERR_INVALID_FEATURES (b_values (w_features w f)) (check_features heap jen w h f)).
Proof. exact features_spec. Qed.
Print Assumptions C50_features.
Theorem C50_unambiguous : forall heap A code vs r r', verdict heap A code vs r -> verdict heap A code vs r' -> r = r'.
Proof. exact verdict_func. Qed.
Print Assumptions C50_unambiguous.
(** but the values of features are refused by every features space *)
Theorem C50_features_values : forall heap jen w h vs, sp_type (w_space w h) = OT_FEATURES_SPACE ->
  check_features_values heap jen w h vs = Err ERR_INVALID_OBJECT.
Proof. exact features_values_spec. Qed.
Print Assumptions C50_features_values.
Theorem C50_agreement_refuted : exists heap jen w h f, sp_type (w_space w h) = OT_FEATURES_SPACE /\
  check_features heap jen w h f = Ok true /\ check_features_values heap jen w h (b_values (w_features w f)) = Err ERR_INVALID_OBJECT.
Proof. exists eh, ejen, ew, 900, 41. vm_compute. auto. Qed.
Print Assumptions C50_agreement_refuted.
Lemma eh_created : forall p, created ejen (eh p).
Proof.
  intro p. apply (created_numerical ejen [if p =? 10 then 97 else 98] CodecModel.NUM_FLOAT 0 0x4014000000000000 0 one);
    try (vm_compute; intuition discriminate); unfold eh; destruct (p =? 10); try (vm_compute; reflexivity); unfold ok_name; repeat constructor; vm_compute; intuition discriminate.
Qed.
Example C50_ex : (forall p, In p [10; 20] -> created ejen (eh p)) /\ describes eh ectx [10; 20] /\
  check_evaluation_values eh ejen ew 600 [ccs_float one; ccs_float four] = Ok true /\
  check_evaluation_values eh ejen ew 600 [ccs_float one; ccs_float 0x4014000000000000] = Ok false /\
  check_evaluation_values eh ejen ew 600 [ccs_float one] = Err ERR_INVALID_EVALUATION /\
  check_features eh ejen ew 900 41 = Ok true.
Proof.
  split; [intros; apply eh_created|]. split; [|vm_compute; auto].
  apply good_describes. split; [reflexivity|]. split; [reflexivity|]. repeat constructor; vm_compute; intuition discriminate.
Qed.

(** C66: the objectives of a space are the ones given, in order *)
Theorem C66_add : forall heap s A e t, describes heap (sp_ctx s) A -> (forall h, occurs h e -> 0 < h) ->
  exists r s', add_objective s e t = (r, s') /\ sp_type s' = sp_type s /\ sp_ctx s' = sp_ctx s /\ added A (sp_objectives s) e t r (sp_objectives s').
Proof. exact add_objective_spec. Qed.
Print Assumptions C66_add.
Theorem C66_adds : forall heap A new s, describes heap (sp_ctx s) A -> (forall e t, In (e, t) new -> forall h, occurs h e -> 0 < h) ->
  exists r s', add_objectives s new = (r, s') /\ sp_type s' = sp_type s /\ sp_ctx s' = sp_ctx s /\ adds A (sp_objectives s) new r (sp_objectives s').
Proof. exact add_objectives_spec. Qed.
Print Assumptions C66_adds.
Theorem C66_get : forall s, (forall i, 0 <= i -> i < 2 ^ 32 ->
    get_objective s i = match nth_error (sp_objectives s) (Z.to_nat i) with Some o => Ok o | None => Err ERR_OUT_OF_BOUNDS end) /\
  (forall arr, read (None, 0) (map (fun o => (Some (fst o), snd o)) (sp_objectives s)) arr (get_objectives s arr)).
Proof. exact objectives_read. Qed.
Print Assumptions C66_get.
Example C66_ex : let s0 := mkSpace OT_OBJECTIVE_SPACE ectx [] in
  add_objectives s0 [(var 10, MINIMIZE); (var 20, MAXIMIZE)] = (0, espace) /\
  add_objectives s0 [(var 10, MINIMIZE); (var 30, MAXIMIZE); (var 20, MAXIMIZE)] =
    (ERR_INVALID_PARAMETER, mkSpace OT_OBJECTIVE_SPACE ectx [(var 10, MINIMIZE)]) /\
  get_objectives espace (Some 3%nat) = Ok (Some [(Some (var 10), 0); (Some (var 20), 1); (None, 0)], 2%nat) /\
  get_objectives espace (Some 1%nat) = Err ERR_INVALID_VALUE /\ get_objective espace 2 = Err ERR_OUT_OF_BOUNDS.
Proof. vm_compute. auto 10. Qed.
