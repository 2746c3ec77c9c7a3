(** Properties C47, C48, C56, C57: random tuners (plain, tree and features ones). *)
From Coq Require Import ZArith List Bool Lia.
From Verif Require Import Base Datum CmpModel CmpSpec ParamModel ContextModel ExprModel EvalModel EvalSpec EvalProps TunerModel TunerSpec TunerProofs.
Import ListNotations.
Open Scope Z_scope.

(** C47: the history is what was told, and the optima are the Pareto front of it when the
    evaluations belong to one space, have values that are not NaN and do not change *)
Theorem C47_history : forall heap jen feat fs calls t, (forall w es f, In (w, es) calls -> wf_binding (w_features w f)) ->
  tells heap jen feat (create_tuner fs) calls = Ok t -> t_history t = told calls.
Proof. exact history_told. Qed.
Print Assumptions C47_history.
Theorem C47_front : forall heap jen feat fs s calls final, (forall f, wf_binding (w_features final f)) -> settled calls final ->
  (forall e, In e (told calls) -> ev_space (w_eval final e) = s /\ ok_result final e /\ assessed heap jen final e) ->
  exists t, tells heap jen feat (create_tuner fs) calls = Ok t /\ t_history t = told calls /\
    front heap jen feat final (told calls) (t_optima t) /\
    (forall f, In f (told calls) -> exists o, In o (t_optima t) /\ (dominates heap jen feat final o f \/ tied heap jen feat final o f)).
Proof. exact front_kept. Qed.
Print Assumptions C47_front.
Theorem C47_front_unique : forall heap jen feat w hist o o', front heap jen feat w hist o -> front heap jen feat w hist o' -> o = o'.
Proof. exact front_unique. Qed.
Print Assumptions C47_front_unique.
Theorem C47_read : forall t arr, read 0 (t_optima t) arr (get_optima t arr) /\ read 0 (t_history t) arr (get_history t arr).
Proof. exact queried. Qed.
Print Assumptions C47_read.
(** The world of EvalProps: 2 is dominated by 1, 4 is tied with 1, 3 is not comparable
    with 1, 6 has failed.  With features, 4 is not comparable with 1 but dominates 3. *)
Definition after (feat : bool) (calls : list (world * list Z)) : list Z * list Z :=
  match tells eh ejen feat (create_tuner 900) calls with Ok t => (t_history t, t_optima t) | _ => ([], []) end.
Example C47_ex : after false [(ew, [2; 6]); (ew, [1; 4; 3])] = ([2; 1; 4; 3], [1; 3]) /\
  after true [(ew, [2; 6]); (ew, [1; 4; 3])] = ([2; 1; 4; 3], [1; 4; 3]) /\ told [(ew, [2; 6]); (ew, [1; 4; 3])] = [2; 1; 4; 3] /\
  get_optima (mkTuner [2; 1; 4; 3] [1; 3] [] 0) (Some 3%nat) = Ok (Some [1; 3; 0], 2%nat).
Proof. vm_compute. auto. Qed.
Lemma ew_assessed e : In e [1; 2; 3; 4] -> ev_space (w_eval ew e) = 600 /\ ok_result ew e /\ assessed eh ejen ew e.
Proof.
  intro I. cbn in I. destruct I as [<- |[<- |[<- |[<- |[]]]]]; (split; [reflexivity|]); (split; [reflexivity|]);
    intros o [<- |[<- |[]]]; eexists; (split; [vm_compute; reflexivity|]); (split; [vm_compute; intuition discriminate|]); intros (f & E & K); injection E as <-; vm_compute in K; discriminate.
Qed.
Example C47_front_ex : front eh ejen false ew [2; 1; 4; 3] [1; 3].
Proof.
  destruct (C47_front eh ejen false 900 600 [(ew, [2; 6]); (ew, [1; 4; 3])] ew ew_wf) as (t & T & _ & F & _).
  - intros b w es a E e I. assert (w = ew); [|subst w; now repeat split].
    destruct b as [|? [|? [|? b]]]; injection E; intros; subst; try reflexivity; discriminate.
  - intros e I. apply ew_assessed. vm_compute in I |- *. tauto.
  - vm_compute in T. injection T as <-. exact F.
Qed.

(** C48: what telling one evaluation does to the optima.  They are only lost to a better
    evaluation, or when a comparison fails: then the evaluation and the optimum compared
    are both dropped. *)
Theorem C48_tell : forall heap jen feat w t e t', (forall f, wf_binding (w_features w f)) -> tell heap jen feat w t [e] = Ok t' ->
  (ev_result (w_eval w e) <> 0 /\ t' = t) \/
  (ev_result (w_eval w e) = 0 /\ t_history t' = t_history t ++ [e] /\ retold heap jen feat w e (t_optima t) (t_optima t') /\ t_fspace t' = t_fspace t).
Proof. exact one_told. Qed.
Print Assumptions C48_tell.
Theorem C48_tell_split : forall heap jen feat w es es' t,
  tell heap jen feat w t (es ++ es') = (do t1 <- tell heap jen feat w t es; tell heap jen feat w t1 es').
Proof. exact split_told. Qed.
Print Assumptions C48_tell_split.
Theorem C48_incomparable : forall heap jen feat w t e t', (forall f, wf_binding (w_features w f)) -> tell heap jen feat w t [e] = Ok t' ->
  ev_result (w_eval w e) = 0 -> (forall o, In o (t_optima t) -> compare heap jen w feat e o = Ok NOT_COMPARABLE) ->
  t_optima t' = t_optima t ++ [e].
Proof. exact incomparable_told. Qed.
Print Assumptions C48_incomparable.
Theorem C48_failure : forall heap jen feat w t e t' l1 o l2 c, (forall f, wf_binding (w_features w f)) -> tell heap jen feat w t [e] = Ok t' ->
  ev_result (w_eval w e) = 0 -> t_optima t = l1 ++ o :: l2 -> (forall x, In x l1 -> compare heap jen w feat e x = Ok NOT_COMPARABLE) ->
  compare heap jen w feat e o = Err c -> t_optima t' = l1 ++ l2.
Proof. exact failure_told. Qed.
Print Assumptions C48_failure.
(** an evaluation of another objective space makes the tuner forget its only optimum *)
Theorem C48_refuted : exists heap jen w t e t' o, (forall f, wf_binding (w_features w f)) /\
  ev_result (w_eval w e) = 0 /\ In o (t_optima t) /\ compare heap jen w false e o = Err ERR_INVALID_OBJECT /\
  tell heap jen false w t [e] = Ok t' /\ t_optima t' = [] /\ t_history t' = [o; e].
Proof. exists eh, ejen, ew, (mkTuner [1] [1] [] 900), 7. do 2 eexists. split; [exact ew_wf|]. split; [reflexivity|]. split; [now left|]. vm_compute. auto. Qed.
Print Assumptions C48_refuted.
Example C48_ex : after false [(ew, [1]); (ew, [3])] = ([1; 3], [1; 3]) /\ after false [(ew, [1; 3]); (ew, [8])] = ([1; 3; 8], [1; 3; 8]) /\
  after false [(ew, [3; 1]); (ew, [7])] = ([3; 1; 7], [1]) /\ after false [(ew, [1; 2])] = ([1; 2], [1]).
Proof. vm_compute. auto. Qed.

(** C56: suggestions *)
Theorem C56_suggest : forall w samples t draw,
  (t_optima t = [] -> suggest w samples t draw = ask_one samples) /\
  (t_optima t <> [] -> 0 <= draw -> exists o, nth_error (t_optima t) (Z.to_nat (draw mod lenZ (t_optima t))) = Some o /\
     suggest w samples t draw = Ok (ev_config (w_eval w o))) /\
  (forall i o, nth_error (t_optima t) i = Some o -> lenZ (t_optima t) <= 2 ^ 64 ->
     exists d, 0 <= d < 2 ^ 64 /\ suggest w samples t d = Ok (ev_config (w_eval w o))).
Proof. exact suggested. Qed.
Print Assumptions C56_suggest.
Theorem C56_ask : forall samples,
  (forall c l, samples 1%nat = Ok (c :: l) -> ask_one samples = Ok c) /\ (forall x, samples 1%nat = Err x -> ask_one samples = Err x) /\
  (ask samples None = Ok (None, 1%nat)) /\ (forall n l, samples n = Ok l -> ask samples (Some n) = Ok (Some l, n)) /\
  (forall n x, samples n = Err x -> ask samples (Some n) = Err x).
Proof. exact asked. Qed.
Print Assumptions C56_ask.
Theorem C56_suggest_features : forall heap jen w samples t f draw, (forall g, wf_binding (w_features w g)) -> 0 <= draw ->
  (forall c, check_features heap jen w (t_fspace t) f = Err c ->
     suggest_features heap jen w samples t f draw = Err c /\ forall arr, ask_features heap jen w samples t f arr = Err c) /\
  (check_features heap jen w (t_fspace t) f = Ok false ->
     suggest_features heap jen w samples t f draw = Err ERR_INVALID_FEATURES /\ forall arr, ask_features heap jen w samples t f arr = Err ERR_INVALID_FEATURES) /\
  (check_features heap jen w (t_fspace t) f = Ok true ->
     (forall arr, ask_features heap jen w samples t f arr = ask samples arr) /\
     exists mine, restricted (fun e => same_binding (w_features w f) (w_features w (ev_features (w_eval w e)))) (t_optima t) mine /\
     (mine = [] -> suggest_features heap jen w samples t f draw = ask_one samples) /\
     (mine <> [] -> exists o, nth_error mine (Z.to_nat (draw mod lenZ mine)) = Some o /\
        suggest_features heap jen w samples t f draw = Ok (ev_config (w_eval w o)))).
Proof. exact suggested_features. Qed.
Print Assumptions C56_suggest_features.
Example C56_ex : let t := mkTuner [2; 1; 4; 3] [1; 3; 4] [] 900 in let samples := fun n => Ok (repeat 77 n) in
  suggest ew samples t (3 * 10 ^ 12 + 1) = Ok 33 /\ suggest ew samples (create_tuner 900) 5 = Ok 77 /\
  suggest_features eh ejen ew samples t 42 7 = Ok 34 /\ suggest_features eh ejen ew samples t 41 7 = Ok 31 /\
  suggest_features eh ejen ew samples (mkTuner [] [1] [] 900) 42 7 = Ok 77.
Proof. vm_compute. auto 10. Qed.

(** C57: queries restricted to features *)
Theorem C57_queries : forall w t f arr, (forall g, wf_binding (w_features w g)) ->
  let mine e := same_binding (w_features w f) (w_features w (ev_features (w_eval w e))) in
  (exists l, restricted mine (t_optima t) l /\ read 0 l (option_map (@length Z) arr) (get_optima_features w t f arr)) /\
  (exists l, restricted mine (t_history t) l /\ read 0 l (option_map (@length Z) arr) (get_history_features w t f arr)).
Proof. exact queried_features. Qed.
Print Assumptions C57_queries.
Example C57_ex : let t := mkTuner [2; 1; 4; 3] [1; 3; 4] [] 900 in
  get_optima_features ew t 42 (Some [9; 9; 9]) = Ok (Some [3; 4; 0], 2%nat) /\ get_optima_features ew t 42 (Some [9]) = Err ERR_INVALID_VALUE /\
  get_history_features ew t 41 (Some [9; 9]) = Ok (Some [2; 1], 2%nat) /\ get_history_features ew t 41 None = Ok (None, 2%nat).
Proof. vm_compute. auto. Qed.
