(** Proofs that evaluation follows the meaning of operators, and coherence of comparisons. *)
From Coq Require Import ZArith List Bool Lia Arith.
From Verif Require Import Base Datum CodecModel CodecSpec FloatModel FloatSpec FloatProofs FloatRound CmpModel CmpSpec CmpProofs.
From Verif Require Import MapSpec ParamModel ParamSpec ParamProofs ContextModel ContextSpec ExprModel ExprSpec ExprProofs ExprLemmas.
Import ListNotations.
Open Scope Z_scope.

Section Sem.
  Variable heap : Z -> param.
  Variable jen : list Z -> Z.
  Variable ctx : option context.
  Variable A : option (list Z).
  Variable values : option (list datum).
  Variable known : Z -> Prop.
  Hypothesis SW : sound_world heap jen values known.
  Hypothesis D : match ctx, A with Some c, Some l => describes heap c l | None, None => True | _, _ => False end.
  Notation ev := (eval heap jen ctx values).
  Lemma var_found h : found A values h (var_eval ctx values h).
  Proof.
    unfold found. destruct values as [vs|]; [|reflexivity]. destruct ctx as [c|], A as [l|]; try contradiction; [|reflexivity].
    now apply (var_valued heap).
  Qed.
  Lemma parameter_node e : parameter_of heap e = node_param heap e.
  Proof. reflexivity. Qed.
  Lemma op_binary o t a b m : wf_expr known a -> wf_expr known b -> binary_op heap t a b = Some m ->
    binary (ev a) (ev b) m (ev (EOp o t [a; b])).
  Proof.
    intros Wa Wb M.
    pose proof (eval_wf heap jen ctx values known SW a Wa) as Ea. pose proof (eval_wf heap jen ctx values known SW b Wb) as Eb.
    pose proof (node_ok heap jen values known SW a Wa) as Na. pose proof (node_ok heap jen values known SW b Wb) as Nb.
    assert (T : 0 <= t <= 12).
    { unfold binary_op in M. destruct t as [|p|p]; [lia| |discriminate].
      do 4 (try (destruct p as [p|p|]; try discriminate M)); lia. }
    assert (E : t = 0 \/ t = 1 \/ t = 2 \/ t = 3 \/ t = 4 \/ t = 5 \/ t = 6 \/ t = 7 \/ t = 8 \/ t = 9 \/ t = 10 \/ t = 11 \/ t = 12) by lia.
    repeat destruct E as [E|E]; subst t; injection M as <-; cbn [eval].
    - now apply or_spec.
    - now apply and_spec.
    - now apply (equal_spec jen false).
    - now apply (equal_spec jen true).
    - apply order_spec; auto. apply tests_lt.
    - apply order_spec; auto. apply tests_gt.
    - apply order_spec; auto. apply tests_le.
    - apply order_spec; auto. apply tests_ge.
    - apply (arith_spec false _ fadd _ _ _ _ (result_exactly Z.add)); auto.
    - apply (arith_spec false _ fsub _ _ _ _ (result_exactly Z.sub)); auto.
    - apply (arith_spec false _ fmul _ _ _ _ (result_exactly Z.mul)); auto.
    - apply (arith_spec true _ fdiv _ _ _ _ quot_exactly); auto.
    - apply (arith_spec true _ ffmod _ _ _ _ rem_exactly); auto.
  Qed.
  Lemma op_unary o t a m : wf_expr known a -> unary_op t = Some m -> unary (ev a) m (ev (EOp o t [a])).
  Proof.
    intros Wa M. pose proof (eval_wf heap jen ctx values known SW a Wa) as Ea.
    assert (E : t = 13 \/ t = 14 \/ t = 15).
    { unfold unary_op in M. destruct t as [|p|p]; try discriminate. do 4 (try (destruct p as [p|p|]; try discriminate M)); auto. }
    repeat destruct E as [E|E]; subst t; injection M as <-; cbn [eval].
    - now apply positive_spec.
    - now apply negative_spec.
    - now apply not_spec.
  Qed.
  Lemma takes_cases t n : takes t n ->
    (n = 2%nat /\ forall a b, exists m, binary_op heap t a b = Some m) \/ (n = 1%nat /\ exists m, unary_op t = Some m) \/
    (t = 16 /\ n = 2%nat) \/ t = 17.
  Proof.
    intros [[T N]|[[T N]|[T|T]]]; auto.
    - left. split; [exact N|]. intros a b.
      assert (E : t = 0 \/ t = 1 \/ t = 2 \/ t = 3 \/ t = 4 \/ t = 5 \/ t = 6 \/ t = 7 \/ t = 8 \/ t = 9 \/ t = 10 \/ t = 11 \/ t = 12) by lia.
      repeat destruct E as [E|E]; subst t; eexists; reflexivity.
    - right. left. split; [exact N|]. assert (E : t = 13 \/ t = 14 \/ t = 15) by lia.
      repeat destruct E as [E|E]; subst t; eexists; reflexivity.
  Qed.
  Lemma eval_evaluates e : wf_expr known e -> evaluates heap A values e (ev e).
  Proof.
    cut (wf_expr known e -> evaluates heap A values e (ev e) /\ evaluate heap A values (xnodes e) (map ev (xnodes e))). { intros H K. exact (proj1 (H K)). }
    induction e as [o d|o h|o t nodes IH] using expr_rect'; intro W.
    - split; constructor.
    - split; [apply ev_variable, var_found|constructor].
    - inversion W as [| |? ? ? TK WN]; subst. cbn [xnodes]. rewrite Forall_forall in IH. 
      assert (K : forall n, In n nodes -> wf_expr known n /\ evaluates heap A values n (ev n) /\ evaluate heap A values (xnodes n) (map ev (xnodes n))).
      { rewrite Forall_forall in WN. intros n Hn. split; auto. }
      split.
      + destruct (takes_cases t (length nodes) TK) as [[N M]|[[N [m M]]|[[T N]|T]]].
        * destruct nodes as [|a [|b [|]]]; try discriminate. destruct (M a b) as [m M'].
          destruct (K a (or_introl eq_refl)) as (Wa & Ea & _). destruct (K b (or_intror (or_introl eq_refl))) as (Wb & Eb & _).
          eapply ev_binary; [exact M'|exact Ea|exact Eb|]. now apply op_binary.
        * destruct nodes as [|a [|]]; try discriminate. destruct (K a (or_introl eq_refl)) as (Wa & Ea & _).
          eapply ev_unary; [exact M|exact Ea|]. now apply op_unary.
        * subst t. destruct nodes as [|a [|b [|]]]; try discriminate.
          destruct (K a (or_introl eq_refl)) as (Wa & Ea & _). destruct (K b (or_intror (or_introl eq_refl))) as (Wb & _ & Eb).
          assert (X : (exists o' l, b = EOp o' 17 l) \/ (forall o' l, b <> EOp o' 17 l)).
          { destruct b as [| |o' t l]; try (right; intros; discriminate). destruct (Z.eq_dec t 17) as [->|]; [left; eauto|right; intros; congruence]. }
          destruct X as [(o' & l & ->)|X].
          -- cbn [xnodes] in Eb. eapply ev_in; [exact Ea|exact Eb|]. cbn [eval]. change (16 =? XLIST) with false. change (16 =? XIN) with true. change (17 =? XLIST) with true. cbv iota.
             rewrite parameter_node. apply in_spec; [now apply (node_ok heap jen values known SW)|now apply (eval_wf heap jen ctx values known SW)|].
             intros y Hy. apply in_map_iff in Hy. destruct Hy as (n & En & Hn).
             apply (eval_wf heap jen ctx values known SW n); auto. inversion Wb as [| |? ? ? _ WL]; subst. rewrite Forall_forall in WL. auto.
          -- replace (ev (EOp o 16 [a; b])) with bad_value; [now apply ev_in_wrong|]. cbn [eval]. change (16 =? XLIST) with false. change (16 =? XIN) with true. cbv iota.
             destruct b as [| |o' t l]; try reflexivity. unfold XLIST. destruct (Z.eqb_spec t 17) as [->|]; [now destruct (X o' l)|reflexivity].
        * subst t. apply ev_list.
      + clear - K. induction nodes as [|n l IHl]; cbn [map]; constructor; [apply (K n); now left|]. apply IHl. intros x Hx. apply K. now right.
  Qed.
End Sem.

(** ** The meaning is a function *)
Definition func {T} (P : T -> Prop) : Prop := forall a b, P a -> P b -> a = b.
Lemma flag_iff b b' (P : Prop) : (b = true <-> P) -> (b' = true <-> P) -> @Ok datum (flag b) = Ok (flag b').
Proof. intros H H'. destruct b, b'; try reflexivity; exfalso; [assert (false = true) by tauto|assert (false = true) by tauto]; discriminate. Qed.
Lemma equal_func pl pr x y P : func (fun o => equal_means pl pr x y o P).
Proof.
  intros a b Ha Hb. inversion Ha; inversion Hb; subst; try reflexivity; try (exfalso; tauto); try (exfalso; intuition congruence).
  eapply flag_iff; eassumption.
Qed.
Lemma position_func p x i j : position p x i -> position p x j -> i = j.
Proof. intros [H1 H2] [H3 H4]. symmetry. auto. Qed.
Lemma position_in p x i : position p x i -> In (d_val x) (map d_val (p_values p)).
Proof. intros [H _]. now apply nth_error_In in H. Qed.
Lemma order_func rel pl pr x y : func (order_means rel pl pr x y).
Proof.
  intros a b Ha Hb.
  inversion Ha; inversion Hb; subst; try reflexivity; try (exfalso; tauto);
    try (exfalso; intuition congruence);
    try match goal with H : rank _ _ = Some ?p, H' : rank _ _ = Some ?q |- _ => assert (p = q) by congruence; subst q end;
    try match goal with H : position ?p ?x ?i, H' : position ?p ?x ?j, G : position ?p ?y ?k, G' : position ?p ?y ?l |- _ =>
      assert (i = j) by (eapply position_func; eassumption); assert (k = l) by (eapply position_func; eassumption); subst end;
    try (eapply flag_iff; eassumption);
    try (exfalso; match goal with H : position ?p x _, H' : position ?p y _ |- _ => apply position_in in H; apply position_in in H' end; tauto).
Qed.
Lemma split_func (P : res datum -> Prop) l : forall l1 a l2 l1' b l2',
  l = l1 ++ a :: l2 -> l = l1' ++ b :: l2' -> Forall P l1 -> Forall P l1' -> ~ P a -> ~ P b -> a = b.
Proof.
  induction l as [|x l IH]; intros l1 a l2 l1' b l2' E E' F F' N N'; [now destruct l1|].
  destruct l1 as [|y l1], l1' as [|z l1']; cbn in *; injection E as -> ->; injection E' as E1 E2.
  - congruence.
  - subst. inversion F'; contradiction.
  - subst. inversion F; contradiction.
  - subst. inversion F; inversion F'; subst. eapply (IH l1 a l2 l1' b l2'); eauto.
Qed.
Lemma split_all (P : res datum -> Prop) l l1 a l2 : l = l1 ++ a :: l2 -> Forall P l -> P a.
Proof. intros -> F. apply Forall_app in F. destruct F as [_ F]. now inversion F. Qed.
Definition stops (p : option param) (x : datum) (c r : res datum) : Prop :=
  (exists y, c = Ok y /\ admitted p (d_val y) /\ same (d_val x) (d_val y) /\ r = Ok (flag true)) \/
  (exists y, c = Ok y /\ ~ admitted p (d_val y) /\ r = bad_value) \/ ((forall y, c <> Ok y) /\ r = c).
Lemma stops_func p x c : func (stops p x c).
Proof.
  intros a b [(y & E & P & _ & ->)|[(y & E & P & ->)|[E ->]]] [(z & E' & P' & _ & ->)|[(z & E' & P' & ->)|[E' ->]]]; try reflexivity;
    try (exfalso; eapply E; eassumption); try (exfalso; eapply E'; eassumption); exfalso; assert (y = z) by congruence; subst; tauto.
Qed.
Lemma stops_differs p x c r : stops p x c r -> ~ differs p x c.
Proof.
  intros [(y & E & P & S & _)|[(y & E & P & _)|[E _]]] (z & F & G & H); try (assert (y = z) by congruence; subst; tauto). now apply (E z).
Qed.
Lemma in_cases p x l a : in_means p x l a ->
  (d_val x = VInactive /\ a = Ok inactive) \/
  (d_val x <> VInactive /\ exists l1 c l2, l = l1 ++ c :: l2 /\ Forall (differs p x) l1 /\ stops p x c a) \/
  (d_val x <> VInactive /\ Forall (differs p x) l /\
    ((exists y, In (Ok y) l /\ d_val y = VInactive) /\ a = Ok inactive \/
     (forall y, In (Ok y) l -> d_val y <> VInactive) /\ a = Ok (flag false))).
Proof.
  destruct 1; auto.
  - right. left. split; auto. exists l1, (Ok y), l2. split; auto. split; auto. left. eauto 6.
  - right. left. split; auto. exists l1, (Ok y), l2. split; auto. split; auto. right. left. eauto 6.
  - right. left. split; auto. exists l1, r, l2. split; auto. split; auto. right. right. auto.
  - right. right. split; auto. split; auto. left. eauto.
  - right. right. split; auto.
Qed.
Lemma in_func p x l : func (in_means p x l).
Proof.
  intros a b Ha Hb. apply in_cases in Ha. apply in_cases in Hb.
  destruct Ha as [[X ->]|[(X & l1 & c & l2 & E & F & S)|(X & F & R)]]; destruct Hb as [[X' ->]|[(X' & l1' & c' & l2' & E' & F' & S')|(X' & F' & R')]];
    try contradiction; try reflexivity.
  - assert (c = c') by (eapply (split_func (differs p x) l); eauto using stops_differs). subst c'. eapply stops_func; eassumption.
  - exfalso. apply (stops_differs p x c a S). eapply split_all; eassumption.
  - exfalso. apply (stops_differs p x c' b S'). eapply split_all; eassumption.
  - destruct R as [[(y & Y1 & Y2) ->]|[N ->]], R' as [[(z & Z1 & Z2) ->]|[N' ->]]; try reflexivity; exfalso; [now apply (N' y)|now apply (N z)].
Qed.
Lemma arith_func dv ex ie ov x y : func (arith_means dv ex ie ov x y).
Proof.
  intros a b Ha Hb.
  inversion Ha; inversion Hb; subst; try reflexivity;
    destruct (d_val x) eqn:Ex; cbn [number_of] in *; try (exfalso; intuition congruence); try congruence;
    destruct (d_val y) eqn:Ey; cbn [number_of] in *; try (exfalso; intuition congruence); try congruence;
    repeat match goal with H : Some _ = Some _ |- _ => injection H as H; try subst end;
    try congruence; try (exfalso; cbn [snd fst andb is_zero] in *; intuition congruence); try (exfalso; cbn [snd fst andb is_zero] in *; tauto).
Qed.
Lemma unary_func n f : (forall x, func (f x)) -> func (unary n f).
Proof. intros F a b. destruct n; cbn; [apply F|congruence|congruence]. Qed.
Lemma binary_func l r f : (forall x y, func (f x y)) -> func (binary l r f).
Proof. intros F a b. destruct l; cbn; [|congruence|congruence]. destruct r; cbn; [apply F|congruence|congruence]. Qed.
Lemma neg_func x : func (neg_means x).
Proof. intros a b. unfold neg_means. destruct (d_val x); try congruence. intuition congruence. Qed.
Lemma binary_op_func heap t a b m : binary_op heap t a b = Some m -> forall x y, func (m x y).
Proof.
  intros M x y. destruct (Z_le_dec 0 t) as [T0|T0]; [|unfold binary_op in M; destruct t; try discriminate; lia].
  destruct (Z_le_dec t 12) as [T1|T1].
  2:{ unfold binary_op in M. destruct t as [|p|p]; try discriminate; try lia. do 4 (try (destruct p as [p|p|]; try discriminate M; try lia)). }
  assert (E : t = 0 \/ t = 1 \/ t = 2 \/ t = 3 \/ t = 4 \/ t = 5 \/ t = 6 \/ t = 7 \/ t = 8 \/ t = 9 \/ t = 10 \/ t = 11 \/ t = 12) by lia.
  clear T0 T1. repeat destruct E as [E|E]; subst t; injection M as <-;
    first [apply arith_func|apply order_func|apply equal_func|intros u v; unfold or_means, and_means; congruence].
Qed.
Lemma unary_op_func t m : unary_op t = Some m -> forall x, func (m x).
Proof.
  intros M x. unfold unary_op in M. destruct t as [|p|p]; try discriminate. do 4 (try (destruct p as [p|p|]; try discriminate M)); injection M as <-;
    first [apply neg_func|intros u v; unfold pos_means, not_means; congruence].
Qed.
Lemma found_func A vs h : (forall l, A = Some l -> NoDup l) -> func (found A vs h).
Proof.
  intros N a b. unfold found. destruct vs as [vs|]; [|congruence]. destruct A as [l|]; [|congruence]. specialize (N l eq_refl).
  assert (U : forall i j, nth_error l i = Some h -> nth_error l j = Some h -> i = j).
  { intros i j Hi Hj. rewrite NoDup_nth_error in N. apply N; [apply nth_error_Some; congruence|congruence]. }
  intros Ha Hb. inversion Ha; inversion Hb; subst; try reflexivity;
    try (match goal with H : nth_error l ?i = Some h, H' : nth_error l ?j = Some h |- _ => assert (i = j) by auto; subst j end; congruence);
    exfalso; match goal with H : ~ In h l, H' : nth_error l _ = Some h |- _ => apply nth_error_In in H'; contradiction end.
Qed.
Lemma evaluates_func heap A vs : (forall l, A = Some l -> NoDup l) -> forall e, func (evaluates heap A vs e).
Proof.
  intros N e. cut (func (evaluates heap A vs e) /\ func (evaluate heap A vs (xnodes e))); [tauto|].
  induction e as [o d|o h|o t nodes IH] using expr_rect'.
  - split; intros a b Ha Hb; inversion Ha; inversion Hb; subst; reflexivity.
  - split; intros a b Ha Hb; inversion Ha; inversion Hb; subst; [|reflexivity]. eapply found_func; eassumption.
  - rewrite Forall_forall in IH.
    assert (K : forall n, In n nodes -> func (evaluates heap A vs n)) by (intros n Hn; now apply IH).
    split.
    + intros a b Ha Hb. inversion Ha; subst.
      * inversion Hb; subst; [|discriminate]. assert (m0 = m) by congruence. subst m0. assert (ra0 = ra) by (eapply (K a0); [now left|eassumption|eassumption]). subst ra0.
        eapply (unary_func ra m); [eapply unary_op_func; eassumption|eassumption|eassumption].
      * inversion Hb; subst.
        -- assert (m0 = m) by congruence. subst m0. assert (ra0 = ra) by (eapply (K a0); [now left|eassumption|eassumption]).
           assert (rb0 = rb) by (eapply (K b0); [right; now left|eassumption|eassumption]). subst.
           eapply (binary_func ra rb m); [eapply binary_op_func; eassumption|eassumption|eassumption].
        -- discriminate.
        -- discriminate.
        -- discriminate.
      * inversion Hb; subst.
        -- discriminate.
        -- assert (ra0 = ra) by (eapply (K a0); [now left|eassumption|eassumption]).
           assert (rs0 = rs) by (eapply (proj2 (IH (EOp o' 17 elems) ltac:(right; now left))); cbn [xnodes]; eassumption). subst.
           eapply (unary_func ra); [|eassumption|eassumption]. intro x. apply in_func.
        -- exfalso. match goal with H : forall o' l, _ <> _ |- _ => eapply H; reflexivity end.
      * inversion Hb; subst; try discriminate; try reflexivity. exfalso. match goal with H : forall o' l, _ <> _ |- _ => eapply H; reflexivity end.
      * inversion Hb; subst; try discriminate; try reflexivity.
    + cbn [xnodes]. clear IH. intros a b Ha. revert b. induction Ha; intros b' Hb; inversion Hb; subst; [reflexivity|].
      f_equal; [eapply (K e); [now left|eassumption|eassumption]|]. apply IHHa; [|assumption]. intros n Hn. apply K. now right.
Qed.

(** ** Coherence of comparisons *)
Lemma opposite_order heap jen ctx vs o o' a b :
  opposite (eval heap jen ctx vs (EOp o 5 [a; b])) (eval heap jen ctx vs (EOp o' 6 [a; b])) /\
  opposite (eval heap jen ctx vs (EOp o 4 [a; b])) (eval heap jen ctx vs (EOp o' 7 [a; b])).
Proof.
  assert (G : forall t u l r pl pr, (forall c, u c = negb (t c)) -> opposite (order_eval jen t pl pr l r) (order_eval jen u pl pr l r)).
  { intros t u l r pl pr H. unfold order_eval.
    assert (X : forall b : res datum, (forall c, b <> Ok (flag c)) -> opposite b b) by (intros; now right).
    destruct l as [x| |]; [|now apply X..]. destruct r as [y| |]; [|now apply X..]. cbn [bind].
    destruct (refute _ _); [|now apply X..]. cbn [bind]. destruct (is_inactive x); [now apply X|]. destruct (is_inactive y); [now apply X|].
    destruct (check_parameters jen pl y); [|now apply X..]. destruct (check_parameters jen pr x); [|now apply X..]. cbn [bind].
    assert (Y : forall z : res Z, opposite (do c <- z; Ok (bool_of (t c))) (do c <- z; Ok (bool_of (u c)))).
    { intros [c| |]; cbn [bind]; [|now apply X..]. left. exists (t c). rewrite H. split; unfold bool_of, flag; destruct (t c); reflexivity. }
    destruct pl as [p|], pr as [q|]; try (destruct (p_type p =? PORDINAL)); try (destruct (p_type q =? PORDINAL)); apply Y. }
  split; cbn [eval]; apply G; intro c; lia.
Qed.
Lemma opposite_equal heap jen ctx vs o o' a b :
  opposite (eval heap jen ctx vs (EOp o 2 [a; b])) (eval heap jen ctx vs (EOp o' 3 [a; b])).
Proof.
  cbn [eval]. change (opposite (equal_eval jen false (node_param heap a) (node_param heap b) (eval heap jen ctx vs a) (eval heap jen ctx vs b))
                 (equal_eval jen true (node_param heap a) (node_param heap b) (eval heap jen ctx vs a) (eval heap jen ctx vs b))).
  assert (X : forall b : res datum, (forall c, b <> Ok (flag c)) -> opposite b b) by (intros; now right). unfold equal_eval.
  destruct (eval heap jen ctx vs a) as [x| |]; [|now apply X..]. destruct (eval heap jen ctx vs b) as [y| |]; [|now apply X..]. cbn [bind].
  destruct (is_inactive x); [now apply X|]. destruct (is_inactive y); [now apply X|].
  destruct (check_parameters jen _ y); [|now apply X..]. destruct (check_parameters jen _ x); [|now apply X..]. cbn [bind].
  destruct (test_equal x y) as [v e]. destruct (refute _ _); [|now apply X..]. cbn [bind]. left. exists e.
  split; unfold bool_of, flag; destruct e; reflexivity.
Qed.
(** numbers *)
Lemma plain_numbers heap e v : numeric heap e -> is_number v -> admitted (parameter_of heap e) v.
Proof.
  intros N V. unfold admitted. destruct (parameter_of heap e) as [p|] eqn:E; [|exact Logic.I]. destruct (N p E) as [T|T]; rewrite T; cbn;
    destruct v; try contradiction; eauto.
Qed.
Lemma plain_rank heap a b : numeric heap a -> numeric heap b ->
  rank (parameter_of heap a) (parameter_of heap b) = None /\
  ~ (is_kind PCATEGORICAL (parameter_of heap a) \/ is_kind PCATEGORICAL (parameter_of heap b)).
Proof.
  intros N M. unfold rank, is_kind. split.
  - destruct (parameter_of heap a) as [p|] eqn:E, (parameter_of heap b) as [q|] eqn:F; try reflexivity;
      try (destruct (N p E) as [-> | ->]); try (destruct (M q F) as [-> | ->]); reflexivity.
  - intros [(q & E & T)|(q & E & T)]; [destruct (N q E)|destruct (M q E)]; unfold PCATEGORICAL, PNUMERICAL, PDISCRETE in *; lia.
Qed.
Lemma numbers_compared heap jen ctx vs known a b x y : sound_world heap jen vs known -> wf_expr known a -> wf_expr known b ->
  numeric heap a -> numeric heap b -> eval heap jen ctx vs a = Ok x -> eval heap jen ctx vs b = Ok y ->
  is_number (d_val x) -> is_number (d_val y) -> forall o,
  (exists c, eval heap jen ctx vs (EOp o 4 [a; b]) = Ok (flag c) /\ (c = true <-> below (d_val x) (d_val y))) /\
  (exists c, eval heap jen ctx vs (EOp o 5 [a; b]) = Ok (flag c) /\ (c = true <-> below (d_val y) (d_val x))) /\
  (exists c, eval heap jen ctx vs (EOp o 2 [a; b]) = Ok (flag c) /\ (c = true <-> same (d_val x) (d_val y))).
Proof.
  intros SW Wa Wb Na Nb Ea Eb Nx Ny o.
  destruct (plain_rank heap a b Na Nb) as [R C].
  pose proof (plain_numbers heap a (d_val y) Na Ny) as Pa. pose proof (plain_numbers heap b (d_val x) Nb Nx) as Pb.
  assert (Ix : d_val x <> VInactive) by (destruct (d_val x); try contradiction; discriminate).
  assert (Iy : d_val y <> VInactive) by (destruct (d_val y); try contradiction; discriminate).
  assert (Ot : ordered_type (d_val x) (d_val y)) by (destruct (d_val x), (d_val y); try contradiction; exact Logic.I).
  assert (Cm : comparable (d_val x) (d_val y)) by (unfold comparable; destruct (d_val x), (d_val y); try contradiction; auto).
  assert (G : forall t rel, binary_op heap t a b = Some (order_means rel (parameter_of heap a) (parameter_of heap b)) ->
    exists c, eval heap jen ctx vs (EOp o t [a; b]) = Ok (flag c) /\ (c = true <-> rel (below (d_val x) (d_val y)) (below (d_val y) (d_val x)))).
  { intros t rel H. pose proof (op_binary heap jen ctx vs known SW o t a b _ Wa Wb H) as B. rewrite Ea, Eb in B. cbn [binary] in B.
    inversion B; try tauto; try congruence. eauto. }
  split; [apply (G 4 (fun lt _ => lt)); reflexivity|]. split; [apply (G 5 (fun _ gt => gt)); reflexivity|].
  pose proof (op_binary heap jen ctx vs known SW o 2 a b _ Wa Wb eq_refl) as B. rewrite Ea, Eb in B. cbn [binary] in B.
  inversion B; try tauto; try congruence. eauto.
Qed.
Lemma key_tri a b : fkey a <> None -> fkey b <> None -> (klt (fkey a) (fkey b) \/ keq (fkey a) (fkey b) \/ klt (fkey b) (fkey a)) /\
  ~ (klt (fkey a) (fkey b) /\ keq (fkey a) (fkey b)) /\ ~ (klt (fkey a) (fkey b) /\ klt (fkey b) (fkey a)) /\ ~ (keq (fkey a) (fkey b) /\ klt (fkey b) (fkey a)).
Proof. unfold klt, keq. destruct (fkey a), (fkey b); try congruence. intros _ _. lia. Qed.
Lemma int_key i : fkey (f_of_int i) <> None.
Proof. rewrite (rounds_key _ _ _ (f_of_int_rounds i)). discriminate. Qed.

Lemma wf_float_pattern f : wf_value (VFloat f) -> 0 <= f < 2 ^ 64.
Proof. exact (fun H => H). Qed.
Lemma mixed_spec i f : 0 <= f < 2 ^ 64 -> finite f ->
  (klt (fkey (f_of_int i)) (fkey f) -> i * 2 ^ 1074 < scaled f) /\
  (klt (fkey f) (fkey (f_of_int i)) -> scaled f < i * 2 ^ 1074) /\
  (Z.abs i <= 2 ^ 53 ->
    (klt (fkey (f_of_int i)) (fkey f) <-> i * 2 ^ 1074 < scaled f) /\
    (klt (fkey f) (fkey (f_of_int i)) <-> scaled f < i * 2 ^ 1074) /\
    (keq (fkey (f_of_int i)) (fkey f) <-> i * 2 ^ 1074 = scaled f)).
Proof.
  intros P F. pose proof (self_rounds f P F) as Rf. pose proof (f_of_int_rounds i) as Ri.
  assert (K : forall a b, klt a b -> kle b a -> False).
  { unfold klt, kle. intros [a|] [b|]; try contradiction. lia. }
  split; [|split].
  - intro L. destruct (Z_lt_le_dec (i * 2 ^ 1074) (scaled f)) as [H|H]; [exact H|]. exfalso. apply (K _ _ L).
    apply (rounds_mono (scaled f) 1 f (i * 2 ^ 1074) 1 (f_of_int i)); auto; try reflexivity. rewrite !Z.mul_1_r. exact H.
  - intro L. destruct (Z_lt_le_dec (scaled f) (i * 2 ^ 1074)) as [H|H]; [exact H|]. exfalso. apply (K _ _ L).
    apply (rounds_mono (i * 2 ^ 1074) 1 (f_of_int i) (scaled f) 1 f); auto; try reflexivity. rewrite !Z.mul_1_r. exact H.
  - intro B. destruct (f_of_int_exact i B) as [Fi Si]. destruct (key_scaled (f_of_int i) f Fi F) as (_ & A1 & A2).
    destruct (key_scaled f (f_of_int i) F Fi) as (_ & A3 & _). rewrite Si in *. tauto.
Qed.
Section Coherent.
  Variables (heap : Z -> param) (jen : list Z -> Z) (ctx : option context) (vs : option (list datum)) (known : Z -> Prop).
  Variables (a b : expr) (x y : datum).
  Hypothesis SW : sound_world heap jen vs known.
  Hypothesis Wa : wf_expr known a.
  Hypothesis Wb : wf_expr known b.
  Hypothesis Na : numeric heap a.
  Hypothesis Nb : numeric heap b.
  Hypothesis Ea : eval heap jen ctx vs a = Ok x.
  Hypothesis Eb : eval heap jen ctx vs b = Ok y.
  Hypothesis Nx : is_number (d_val x).
  Hypothesis Ny : is_number (d_val y).
  Notation ev t o := (eval heap jen ctx vs (EOp o t [a; b])).
  Lemma six o : exists l e g,
    (l = true <-> below (d_val x) (d_val y)) /\ (e = true <-> same (d_val x) (d_val y)) /\ (g = true <-> below (d_val y) (d_val x)) /\
    ev 4 o = Ok (flag l) /\ ev 2 o = Ok (flag e) /\ ev 5 o = Ok (flag g) /\
    ev 6 o = Ok (flag (negb g)) /\ ev 7 o = Ok (flag (negb l)) /\ ev 3 o = Ok (flag (negb e)).
  Proof.
    destruct (numbers_compared heap jen ctx vs known a b x y SW Wa Wb Na Nb Ea Eb Nx Ny o) as ((l & L1 & L2) & (g & G1 & G2) & (e & E1 & E2)).
    exists l, e, g. split; [exact L2|]. split; [exact E2|]. split; [exact G2|]. split; [exact L1|]. split; [exact E1|]. split; [exact G1|].
    destruct (opposite_order heap jen ctx vs o o a b) as [[(c & A1 & A2)|[A1 _]] [(c' & B1 & B2)|[B1 _]]];
      try (exfalso; now apply (A1 g)); try (exfalso; now apply (B1 l)).
    destruct (opposite_equal heap jen ctx vs o o a b) as [(c'' & C1 & C2)|[C1 _]]; [|exfalso; now apply (C1 e)].
    assert (I : forall u v, @Ok datum (flag u) = Ok (flag v) -> u = v) by (intros [] []; try reflexivity; discriminate).
    rewrite G1 in A1. rewrite L1 in B1. rewrite E1 in C1. apply I in A1, B1, C1. subst. auto.
  Qed.
  Lemma trichotomy o : ~ has_nan (d_val x) -> ~ has_nan (d_val y) ->
    (forall f g, d_val x = VFloat f -> d_val y = VFloat g -> keq (fkey f) (fkey g) -> f = g) ->
    exists l e g, ((l, e, g) = (true, false, false) \/ (l, e, g) = (false, true, false) \/ (l, e, g) = (false, false, true)) /\
    ev 4 o = Ok (flag l) /\ ev 2 o = Ok (flag e) /\ ev 5 o = Ok (flag g) /\
    ev 6 o = Ok (flag (l || e)) /\ ev 7 o = Ok (flag (g || e)) /\ ev 3 o = Ok (flag (negb e)).
  Proof.
    intros Ux Uy Z. destruct (six o) as (l & e & g & L & E & G & H1 & H2 & H3 & H4 & H5 & H6). exists l, e, g.
    assert (T : (below (d_val x) (d_val y) \/ same (d_val x) (d_val y) \/ below (d_val y) (d_val x)) /\
      ~ (below (d_val x) (d_val y) /\ same (d_val x) (d_val y)) /\ ~ (below (d_val x) (d_val y) /\ below (d_val y) (d_val x)) /\
      ~ (same (d_val x) (d_val y) /\ below (d_val y) (d_val x))).
    { destruct (d_val x) as [|i|f| | | | |], (d_val y) as [|j|k| | | | |]; try contradiction; unfold below, same, has_nan in *.
      - split; [|split; [|split]].
        + destruct (Z.lt_trichotomy i j) as [C|[C|C]]; [auto|right; left; congruence|auto].
        + intros [C1 C2]. injection C2 as ->. lia.
        + lia.
        + intros [C1 C2]. injection C1 as ->. lia.
      - apply key_tri; [apply int_key|exact Uy].
      - pose proof (key_tri f (f_of_int j) Ux (int_key j)) as K.
        assert (S : keq (fkey (f_of_int j)) (fkey f) <-> keq (fkey f) (fkey (f_of_int j))) by (unfold keq; destruct (fkey f), (fkey (f_of_int j)); intuition congruence).
        tauto.
      - pose proof (key_tri f k Ux Uy) as K. specialize (Z f k eq_refl eq_refl).
        assert (S : keq (fkey f) (fkey k) <-> VFloat f = VFloat k).
        { split; [intro C; now rewrite (Z C)|]. intro C. injection C as ->. unfold keq. destruct (fkey k); [reflexivity|contradiction]. }
        rewrite <- S. exact K. }
    rewrite <- L, <- E, <- G in T.
    assert (C : (l, e, g) = (true, false, false) \/ (l, e, g) = (false, true, false) \/ (l, e, g) = (false, false, true)).
    { destruct l, e, g; auto; exfalso; intuition discriminate. }
    split; [exact C|]. destruct C as [C|[C|C]]; injection C as -> -> ->; auto 10.
  Qed.
  Lemma with_nan o : has_nan (d_val x) \/ has_nan (d_val y) ->
    exists e, (e = true <-> d_val x = d_val y) /\ ev 4 o = Ok (flag false) /\ ev 2 o = Ok (flag e) /\ ev 5 o = Ok (flag false) /\
    ev 6 o = Ok (flag true) /\ ev 7 o = Ok (flag true) /\ ev 3 o = Ok (flag (negb e)).
  Proof.
    intro U. destruct (six o) as (l & e & g & L & E & G & H1 & H2 & H3 & H4 & H5 & H6). exists e.
    assert (K : forall u v, u = None \/ v = None -> ~ klt u v /\ ~ klt v u /\ ~ keq u v).
    { unfold klt, keq. intros [u|] [v|] [C|C]; try discriminate; tauto. }
    assert (T : ~ below (d_val x) (d_val y) /\ ~ below (d_val y) (d_val x) /\ (same (d_val x) (d_val y) <-> d_val x = d_val y)).
    { destruct (d_val x) as [|i|f| | | | |], (d_val y) as [|j|k| | | | |]; try contradiction; unfold below, same, has_nan in *.
      - tauto.
      - destruct (K (fkey (f_of_int i)) (fkey k)) as (K1 & K2 & K3); [tauto|]. split; [exact K1|]. split; [exact K2|]. split; [tauto|discriminate].
      - destruct (K (fkey (f_of_int j)) (fkey f)) as (K1 & K2 & K3); [tauto|]. split; [exact K2|]. split; [exact K1|]. split; [tauto|discriminate].
      - destruct (K (fkey f) (fkey k)) as (K1 & K2 & K3); [tauto|]. tauto. }
    destruct T as (T1 & T2 & T3). rewrite <- T3. split; [exact E|].
    destruct l; [exfalso; apply T1, L; reflexivity|]. destruct g; [exfalso; apply T2, G; reflexivity|]. auto 10.
  Qed.
  Lemma signed_zeros o f g : d_val x = VFloat f -> d_val y = VFloat g -> keq (fkey f) (fkey g) -> f <> g ->
    ev 4 o = Ok (flag false) /\ ev 2 o = Ok (flag false) /\ ev 5 o = Ok (flag false) /\
    ev 6 o = Ok (flag true) /\ ev 7 o = Ok (flag true) /\ ev 3 o = Ok (flag true).
  Proof.
    intros Ex Ey Q N. destruct (six o) as (l & e & h & L & E & G & H1 & H2 & H3 & H4 & H5 & H6). rewrite Ex, Ey in *. unfold below, same in *.
    assert (K : ~ klt (fkey f) (fkey g) /\ ~ klt (fkey g) (fkey f)).
    { unfold klt, keq in *. destruct (fkey f), (fkey g); try tauto. lia. }
    destruct K as [K1 K2]. destruct l; [exfalso; apply K1, L; reflexivity|]. destruct h; [exfalso; apply K2, G; reflexivity|].
    destruct e; [exfalso; apply N; assert (Q2 : VFloat f = VFloat g) by (now apply E); now injection Q2|]. auto 10.
  Qed.
  Lemma mixed o i f : d_val x = VInt i -> d_val y = VFloat f -> 0 <= f < 2 ^ 64 -> finite f -> exists l e g,
    ev 4 o = Ok (flag l) /\ ev 2 o = Ok (flag e) /\ ev 5 o = Ok (flag g) /\
    (l = true -> i * 2 ^ 1074 < scaled f) /\ (g = true -> scaled f < i * 2 ^ 1074) /\
    (Z.abs i <= 2 ^ 53 -> (l = true <-> i * 2 ^ 1074 < scaled f) /\ (g = true <-> scaled f < i * 2 ^ 1074) /\ (e = true <-> i * 2 ^ 1074 = scaled f)).
  Proof.
    intros Ex Ey P F. destruct (six o) as (l & e & g & L & E & G & H1 & H2 & H3 & _). exists l, e, g. rewrite Ex, Ey in *. unfold below, same in *.
    destruct (mixed_spec i f P F) as (M1 & M2 & M3). split; [exact H1|]. split; [exact H2|]. split; [exact H3|].
    split; [intro; apply M1; tauto|]. split; [intro; apply M2; tauto|]. intro B. specialize (M3 B). tauto.
  Qed.
  Lemma mixed' o i f : d_val x = VFloat f -> d_val y = VInt i -> 0 <= f < 2 ^ 64 -> finite f -> exists l e g,
    ev 4 o = Ok (flag l) /\ ev 2 o = Ok (flag e) /\ ev 5 o = Ok (flag g) /\
    (l = true -> scaled f < i * 2 ^ 1074) /\ (g = true -> i * 2 ^ 1074 < scaled f) /\
    (Z.abs i <= 2 ^ 53 -> (l = true <-> scaled f < i * 2 ^ 1074) /\ (g = true <-> i * 2 ^ 1074 < scaled f) /\ (e = true <-> i * 2 ^ 1074 = scaled f)).
  Proof.
    intros Ex Ey P F. destruct (six o) as (l & e & g & L & E & G & H1 & H2 & H3 & _). exists l, e, g. rewrite Ex, Ey in *. unfold below, same in *.
    destruct (mixed_spec i f P F) as (M1 & M2 & M3). split; [exact H1|]. split; [exact H2|]. split; [exact H3|].
    split; [intro; apply M2; tauto|]. split; [intro; apply M1; tauto|]. intro B. specialize (M3 B). tauto.
  Qed.
End Coherent.
