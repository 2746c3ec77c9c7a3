(** Proofs about accessors of evaluations and objective spaces and about value checks. *)
From Coq Require Import ZArith List Bool Lia Arith.
From Verif Require Import Base Datum CmpModel CmpSpec ParamModel ParamSpec ParamProofs ContextModel ContextSpec ExprModel ExprSpec ExprLemmas SpaceLemmas EvalModel EvalSpec EvalArraySpec EvalProofs EvalOrder TunerSpec.
Import ListNotations.
Open Scope Z_scope.

Section World.
  Variable heap : Z -> param.
  Variable jen : list Z -> Z.
  Variable w : world.

  (** ** Objective values *)
  Lemma store_length a i d : (i < length a)%nat -> store a i d = firstn i a ++ d :: skipn (S i) a.
  Proof. reflexivity. Qed.
  Lemma overwritten_length a ds : (length ds <= length a)%nat -> length (overwritten a ds) = length a.
  Proof. intro L. unfold overwritten. rewrite app_length, skipn_length. lia. Qed.
  Lemma overwritten_store a ds d : (length ds < length a)%nat -> store (overwritten a ds) (length ds) d = overwritten a (ds ++ [d]).
  Proof.
    intro L. rewrite store_length by (rewrite overwritten_length; lia). unfold overwritten. rewrite firstn_app, Nat.sub_diag, firstn_all. cbn [firstn]. rewrite app_nil_r.
    rewrite <- app_assoc. f_equal. cbn [app]. f_equal. rewrite skipn_app. rewrite (skipn_all2 ds) by lia. cbn [app]. replace (S (length ds) - length ds)%nat with 1%nat by lia.
    rewrite CodecProofs.skipn_skipn'. f_equal. rewrite app_length. cbn. lia.
  Qed.
  Lemma fill_spec e : forall objs ds a l, l = map Ok ds ++ map (fun o => value_of heap jen w e (fst o)) objs -> (length ds <= length a <= length l)%nat ->
    exists r a', fill heap jen w e objs (length ds) (overwritten a ds) = (r, a') /\ length a' = length a /\ gives l (Some a) (do _ <- r; Ok (length l), Some a').
  Proof.
    induction objs as [|[x t] objs IH]; intros ds a l E L; cbn [fill map] in *.
    - exists (Ok tt), (overwritten a ds). rewrite overwritten_length by lia. split; [reflexivity|]. split; [reflexivity|]. cbn [bind]. rewrite app_nil_r in E.
      assert (LA : length a = length l) by (rewrite E in *; rewrite map_length in *; lia).
      replace (overwritten a ds) with ds; [now apply gives_all|]. unfold overwritten. rewrite skipn_all2; [now rewrite app_nil_r|]. rewrite LA, E, map_length. lia.
    - change (objective_eval heap jen w e x) with (value_of heap jen w e x). cbn [fst] in E. destruct (value_of heap jen w e x) as [d|c|u] eqn:V.
      + rewrite overwritten_length by lia. destruct (Nat.ltb_spec (length ds) (length a)).
        * rewrite overwritten_store by lia. replace (S (length ds)) with (length (ds ++ [d])) by (rewrite app_length; cbn; lia). apply IH; [|rewrite app_length; cbn; lia].
          rewrite map_app, <- app_assoc. exact E.
        * assert (LA : length a = length ds) by lia. exists (UB UBBounds), (overwritten a ds). split; [reflexivity|]. split; [now rewrite overwritten_length by lia|]. cbn [bind].
          replace (overwritten a ds) with ds; [now apply (gives_overrun l a ds d _ E)|]. unfold overwritten. now rewrite skipn_all2, app_nil_r by lia.
      + exists (Err c), (overwritten a ds). split; [reflexivity|]. rewrite overwritten_length by lia. split; [reflexivity|]. now apply (gives_failure l a ds _ _ _ E L).
      + exists (UB u), (overwritten a ds). split; [reflexivity|]. rewrite overwritten_length by lia. split; [reflexivity|]. now apply (gives_failure l a ds _ _ _ E L).
  Qed.
  Theorem objective_values_spec e arr : gives (map (fun o => value_of heap jen w e (fst o)) (objectives w e)) arr (get_objective_values heap jen w e arr).
  Proof.
    unfold get_objective_values. fold (objectives w e). set (objs := objectives w e). set (l := map _ objs). assert (LL : length l = length objs) by apply map_length.
    rewrite <- LL. destruct arr as [a|]; [|constructor]. destruct (Nat.ltb_spec (length l) (length a)); [now apply gives_long|].
    destruct (fill_spec e objs [] a l eq_refl ltac:(cbn; lia)) as (r & a' & F & L' & G). change (overwritten a []) with a in F. cbn [length] in F. rewrite F.
    rewrite L', firstn_all2 by lia. replace (length a - length l)%nat with O by lia. cbn [repeat]. now rewrite app_nil_r.
  Qed.
  Theorem objective_value_spec e i : 0 <= i -> i < 2 ^ 32 ->
    get_objective_value heap jen w e i = match nth_error (objectives w e) (Z.to_nat i) with Some o => value_of heap jen w e (fst o) | None => Err ERR_OUT_OF_BOUNDS end.
  Proof.
    intros L H. unfold get_objective_value, get_objective. unfold wrap. rewrite Z.mod_small by lia. fold (objectives w e). now destruct (nth_error (objectives w e) (Z.to_nat i)).
  Qed.

  (** ** Objectives *)
  Theorem add_objective_spec s A e t : describes heap (sp_ctx s) A -> (forall h, occurs h e -> 0 < h) ->
    exists r s', add_objective s e t = (r, s') /\ sp_type s' = sp_type s /\ sp_ctx s' = sp_ctx s /\ added A (sp_objectives s) e t r (sp_objectives s').
  Proof.
    intros D P. unfold add_objective. destruct (check_context_spec heap e (Some (sp_ctx s)) A P) as [(_ & H & E)|[(N & _)|(_ & (h & O & NI) & E)]].
    - intros c [= <-]. exact D.
    - rewrite E. do 2 eexists. split; [reflexivity|]. cbn. split; [reflexivity|]. split; [reflexivity|]. apply added_ok. apply H. discriminate.
    - discriminate.
    - rewrite E. do 2 eexists. split; [reflexivity|]. split; [reflexivity|]. split; [reflexivity|]. now apply (added_foreign _ _ _ _ h).
  Qed.
  Theorem add_objectives_spec A : forall new s, describes heap (sp_ctx s) A -> (forall e t, In (e, t) new -> forall h, occurs h e -> 0 < h) ->
    exists r s', add_objectives s new = (r, s') /\ sp_type s' = sp_type s /\ sp_ctx s' = sp_ctx s /\ adds A (sp_objectives s) new r (sp_objectives s').
  Proof.
    induction new as [|[e t] new IH]; intros s D P; cbn [add_objectives].
    - do 2 eexists. split; [reflexivity|]. split; [reflexivity|]. split; [reflexivity|]. rewrite <- (app_nil_r (sp_objectives s)) at 2. apply adds_all. intros e t [].
    - destruct (add_objective_spec s A e t D (P e t ltac:(now left))) as (r & s1 & E & T & C & AD). rewrite E.
      destruct AD as [H|h O NI]; cbn.
      + destruct (IH s1) as (r' & s' & E' & T' & C' & AD'); [now rewrite C|intros e' t' I; apply (P e' t'); now right|]. rewrite E'. exists r', s'. split; [reflexivity|]. split; [congruence|]. split; [congruence|].
        assert (H1 : sp_objectives s1 = sp_objectives s ++ [(e, t)]).
        { unfold add_objective in E. destruct (check_context_spec heap e (Some (sp_ctx s)) A (P e t ltac:(now left))) as [(_ & _ & CC)|[(N & _)|(_ & (h & O & NI) & CC)]].
          - intros c [= <-]. exact D.
          - rewrite CC in E. injection E as <-. reflexivity.
          - discriminate.
          - now contradiction (NI (H h O)). }
        rewrite H1 in AD'. destruct AD' as [AL|l1 e' t' l2 h -> AL O NI].
        * rewrite <- app_assoc. apply adds_all. intros e' t' [I|I]; [injection I as <- <-; exact H|now apply (AL e' t')].
        * rewrite <- app_assoc. apply (adds_some A _ _ ((e, t) :: l1) e' t' l2 h); auto. intros e1 t1 [I|I]; [injection I as <- <-; exact H|now apply (AL e1 t1)].
      + exists ERR_INVALID_PARAMETER, s1. split; [reflexivity|]. split; [exact T|]. split; [exact C|].
        assert (H1 : sp_objectives s1 = sp_objectives s ++ []).
        { rewrite app_nil_r. unfold add_objective in E. destruct (check_context e (Some (sp_ctx s))); injection E; intros; subst; try reflexivity; discriminate. }
        rewrite H1. apply (adds_some A _ _ [] e t new h); auto. intros e1 t1 [].
  Qed.
  Theorem get_objectives_spec s arr : read (None, 0) (map (fun o => (Some (fst o), snd o)) (sp_objectives s)) arr (get_objectives s arr).
  Proof.
    unfold get_objectives. set (l := map _ _). assert (L : length l = length (sp_objectives s)) by apply map_length. rewrite <- L. destruct arr as [n|]; [|constructor].
    unfold refute. destruct (Nat.ltb_spec n (length l)); cbn [bind]; [now apply read_small|]. now apply read_filled.
  Qed.

  (** ** Checking values *)
  Lemma created_check_all p v : created jen p -> wf_datum v -> (check_value jen p v = true <-> domain p (d_val v)).
  Proof.
    intros C W. destruct (Z.eq_dec (p_type p) PSTRING) as [E|N]; [|now apply created_check].
    destruct C as [nm t lo up q def p' N M1 M2 M3 M4 H | t nm vals idx p' K N W' Hi H | nm N].
    - destruct (check_numerical jen _ _ _ _ _ _ _ H) as (_ & T & _). rewrite T in E. discriminate.
    - destruct (check_categorical jen t nm vals idx p' K W' Hi H) as (T & _). rewrite T in E. destruct K as [-> |[-> | ->]]; discriminate.
    - rewrite check_string by exact W. reflexivity.
  Qed.
  Lemma check_all_spec : forall A vs, (forall p, In p A -> created jen (heap p)) -> Forall wf_datum vs -> length vs = length A ->
    (check_all_values heap jen A vs = true /\ admissible heap A vs) \/
    (check_all_values heap jen A vs = false /\ exists i p v, nth_error A i = Some p /\ nth_error vs i = Some v /\ ~ domain (heap p) (d_val v)).
  Proof.
    induction A as [|p A IH]; intros [|v vs] C W L; try discriminate; cbn [check_all_values].
    - left. split; [reflexivity|]. split; [reflexivity|]. intros [|i]; discriminate.
    - inversion W as [|? ? Wv Ws]; subst. pose proof (created_check_all (heap p) v (C p ltac:(now left)) Wv) as CK. destruct (check_value jen (heap p) v).
      + destruct (IH vs ltac:(intros; apply C; now right) Ws ltac:(now injection L)) as [[E [LL M]]|[E (i & q & u & Ni & Nu & ND)]].
        * left. split; [exact E|]. split; [cbn; now f_equal|]. intros [|i] q u Nq Nu; cbn in Nq, Nu; [injection Nq as <-; injection Nu as <-; now apply CK|]. now apply (M i).
        * right. split; [exact E|]. exists (S i), q, u. auto.
      + right. split; [reflexivity|]. exists O, p, v. split; [reflexivity|]. split; [reflexivity|]. intro D. apply CK in D. discriminate.
  Qed.
  Lemma check_vector_spec code s vs : (forall p, In p (c_params (sp_ctx s)) -> created jen (heap p)) -> Forall wf_datum vs ->
    verdict heap (c_params (sp_ctx s)) code vs (check_vector heap jen code s vs).
  Proof.
    intros C W. unfold check_vector. destruct (Nat.eqb_spec (length vs) (length (c_params (sp_ctx s)))) as [L|L]; cbn [negb refute bind]; [|now apply verdict_length].
    destruct (check_all_spec (c_params (sp_ctx s)) vs C W L) as [[-> A]|[-> (i & p & v & Ni & Nv & D)]]; [now apply verdict_valid|now apply (verdict_invalid _ _ _ _ i p v)].
  Qed.

  Lemma describes_params c A : describes heap c A -> c_params c = A.
  Proof.
    intros (_ & G & _). specialize (G (Nat.max (length (c_params c)) (length A))). unfold get_parameters, refute in G.
    destruct (Nat.ltb_spec (Nat.max (length (c_params c)) (length A)) (length (c_params c))); [lia|].
    destruct (Nat.ltb_spec (Nat.max (length (c_params c)) (length A)) (length A)); [lia|]. cbn [bind] in G. injection G as E L.
    rewrite L in E. apply app_inv_tail in E. exact E.
  Qed.
  Theorem evaluation_values_spec h A vs : describes heap (sp_ctx (w_space w h)) A -> (forall p, In p A -> created jen (heap p)) -> Forall wf_datum vs ->
    sp_type (w_space w h) = OT_OBJECTIVE_SPACE -> verdict heap A ERR_INVALID_EVALUATION vs (check_evaluation_values heap jen w h vs).
  Proof.
    intros D C W T. unfold check_evaluation_values. rewrite T. cbn [Z.eqb negb refute bind]. change (OT_OBJECTIVE_SPACE =? OT_OBJECTIVE_SPACE) with true. cbn [negb refute bind].
    apply describes_params in D. subst A. now apply check_vector_spec.
  Qed.
  Theorem features_spec h f A : describes heap (sp_ctx (w_space w h)) A -> (forall p, In p A -> created jen (heap p)) -> Forall wf_datum (b_values (w_features w f)) ->
    sp_type (w_space w h) = OT_FEATURES_SPACE ->
    (b_context (w_features w f) <> h /\ check_features heap jen w h f = Err ERR_INVALID_FEATURES) \/
    (b_context (w_features w f) = h /\ verdict heap A ERR_INVALID_FEATURES (b_values (w_features w f)) (check_features heap jen w h f)).
  Proof.
    intros D C W T. unfold check_features. rewrite T. change (OT_FEATURES_SPACE =? OT_FEATURES_SPACE) with true. cbn [negb refute bind].
    destruct (Z.eqb_spec (b_context (w_features w f)) h) as [E|N]; cbn [negb refute bind]; [right|left; auto]. split; [exact E|].
    apply describes_params in D. subst A. now apply check_vector_spec.
  Qed.
  Theorem features_values_spec h vs : sp_type (w_space w h) = OT_FEATURES_SPACE -> check_features_values heap jen w h vs = Err ERR_INVALID_OBJECT.
  Proof. intro T. unfold check_features_values. rewrite T. reflexivity. Qed.
  Lemma verdict_func A code vs r r' : verdict heap A code vs r -> verdict heap A code vs r' -> r = r'.
  Proof.
    intros V V'. destruct V as [L|[L M]|i p v L Np Nv D]; inversion V' as [L'|[L' M']|i' p' v' L' Np' Nv' D']; subst; try reflexivity; try contradiction; exfalso.
    - apply D'. now apply (M i').
    - apply D. now apply (M' i).
  Qed.
End World.

Theorem compare_swap : forall heap jen feat w a b r, (forall f, wf_binding (w_features w f)) ->
  compare heap jen w feat a b = Ok r -> compare heap jen w feat b a = Ok (if r =? 2 then 2 else - r).
Proof.
  intros heap jen feat w a b r W E. pose proof (compare_spec heap jen w feat a b W) as C. rewrite E in C.
  apply compares_swap in C. eapply compares_func; [apply compare_spec; exact W|exact C].
Qed.
Theorem compare_order : forall heap jen feat w s, (forall f, wf_binding (w_features w f)) ->
  let fine e := ev_space (w_eval w e) = s /\ ok_result w e /\ assessed heap jen w e in
  let dom := dominates heap jen feat w in let tie := tied heap jen feat w in
  (forall a b, fine a -> fine b -> let r := compare heap jen w feat a b in
     (r = Ok (-1) /\ dom a b) \/ (r = Ok 1 /\ dom b a) \/ (r = Ok 0 /\ tie a b) \/ (r = Ok 2 /\ ~ dom a b /\ ~ dom b a /\ ~ tie a b)) /\
  (forall a b, fine a -> fine b -> dom a b -> ~ dom b a /\ ~ tie b a /\ ~ tie a b) /\
  (forall a b, fine a -> fine b -> tie a b -> tie b a) /\
  (forall a b c, fine a -> fine b -> fine c ->
     (dom a b -> dom b c -> dom a c) /\ (tie a b -> tie b c -> tie a c) /\ (tie a b -> dom b c -> dom a c) /\ (dom a b -> tie b c -> dom a c)).
Proof.
  intros heap jen feat w s W fine dom tie. split; [|split; [|split]].
  - intros a b A B r. apply (compares_fine heap jen feat w s a b r A B). apply compare_spec. exact W.
  - intros a b A B D. split; [exact (dom_asym heap jen feat w s a b A B D)|]. split; [exact (dom_not_tie heap jen feat w s a b A B D)|].
    intro T. apply (dom_not_tie heap jen feat w s a b A B D). exact (tie_sym heap jen feat w s a b A B T).
  - exact (tie_sym heap jen feat w s).
  - intros a b c A B C. split; [exact (dom_trans heap jen feat w s a b c A B C)|]. split; [exact (tie_trans heap jen feat w s a b c A B C)|].
    split; [exact (tie_dom heap jen feat w s a b c A B C)|exact (dom_tie heap jen feat w s a b c A B C)].
Qed.
Theorem objectives_read : forall s, (forall i, 0 <= i -> i < 2 ^ 32 ->
    get_objective s i = match nth_error (sp_objectives s) (Z.to_nat i) with Some o => Ok o | None => Err ERR_OUT_OF_BOUNDS end) /\
  (forall arr, read (None, 0) (map (fun o => (Some (fst o), snd o)) (sp_objectives s)) arr (get_objectives s arr)).
Proof.
  intro s. split; [|exact (get_objectives_spec s)]. intros i L H. unfold get_objective, wrap. now rewrite Z.mod_small by lia.
Qed.
