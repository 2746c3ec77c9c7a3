(** Proofs about whole expressions: dependence on parameters, inactivity, creation. *)
From Coq Require Import ZArith List Bool Lia Arith Sorting.Sorted.
From Verif Require Import Base Datum CodecModel CodecSpec FloatModel FloatSpec FloatProofs FloatRound CmpModel CmpSpec CmpProofs.
From Verif Require Import MapSpec ParamModel ParamSpec ParamProofs ContextModel ContextSpec ExprModel ExprSpec ExprProofs.
Import ListNotations.
Open Scope Z_scope.

(** ** Only the parameters that occur matter *)
Lemma map_ext_in' {A B} (f g : A -> B) l : (forall a, In a l -> f a = g a) -> map f l = map g l.
Proof. apply map_ext_in. Qed.
Lemma eval_ext heap jen ctx values ctx' values' e :
  (forall h, occurs h e -> var_eval ctx values h = var_eval ctx' values' h) ->
  eval heap jen ctx values e = eval heap jen ctx' values' e.
Proof.
  cut ((forall h, occurs h e -> var_eval ctx values h = var_eval ctx' values' h) ->
    eval heap jen ctx values e = eval heap jen ctx' values' e /\
    forall n, In n (xnodes e) -> eval heap jen ctx values n = eval heap jen ctx' values' n). { intros H K. exact (proj1 (H K)). }
  induction e as [o d|o h|o t nodes IH] using expr_rect'; intro H; cbn [eval xnodes].
  - split; [reflexivity|intros n []].
  - split; [apply H; constructor|intros n []].
  - assert (K : forall n, In n nodes -> eval heap jen ctx values n = eval heap jen ctx' values' n /\
       forall m, In m (xnodes n) -> eval heap jen ctx values m = eval heap jen ctx' values' m).
    { rewrite Forall_forall in IH. intros n Hn. apply IH; auto. intros h Hh. apply H. now apply (occ_op h o t nodes n). }
    split; [|intros n Hn; now apply K]. clear IH H.
    destruct (t =? XLIST); [reflexivity|]. destruct (t =? XIN).
    + destruct nodes as [|l [|e2 rest]]; [reflexivity|reflexivity|]. destruct e2 as [| |o2 t2 elems]; try reflexivity.
      destruct (t2 =? XLIST); [|reflexivity].
      rewrite (proj1 (K l (or_introl eq_refl))). f_equal. apply map_ext_in'.
      exact (proj2 (K (EOp o2 t2 elems) (or_intror (or_introl eq_refl)))).
    + destruct nodes as [|a rest]; [reflexivity|]. rewrite (proj1 (K a (or_introl eq_refl))).
      destruct rest as [|b rest]; [reflexivity|]. rewrite (proj1 (K b (or_intror (or_introl eq_refl)))). reflexivity.
Qed.

(** ** The parameters that occur *)
Lemma collect_occurs e h : In h (collect_params e) <-> occurs h e.
Proof.
  induction e as [o d|o g|o t nodes IH] using expr_rect'; cbn [collect_params].
  - split; [intros []|]. intro H. inversion H.
  - split; [intros [->|[]]; constructor|]. intro H. inversion H. now left.
  - rewrite in_flat_map. rewrite Forall_forall in IH. split.
    + intros (n & I1 & I2). apply (occ_op h o t nodes n); auto. now apply IH.
    + intro H. inversion H; subst. exists n. split; auto. now apply IH.
Qed.
Lemma insert_in x h l : In x (insert h l) <-> x = h \/ In x l.
Proof.
  induction l as [|y l IH]; cbn [insert]; [cbn; intuition|]. destruct (h <=? y); cbn [In]; [intuition|]. rewrite IH. intuition.
Qed.
Lemma sort_in x l : In x (sort l) <-> In x l.
Proof.
  induction l as [|h l IH]; cbn; [tauto|]. rewrite insert_in, IH. intuition.
Qed.
Lemma insert_sorted h l : StronglySorted Z.le l -> StronglySorted Z.le (insert h l).
Proof.
  induction 1 as [|y l S IH F]; cbn [insert]; [repeat constructor|].
  destruct (Z.leb_spec h y).
  - constructor; [constructor; auto|]. constructor; auto. eapply Forall_impl; [|exact F]. cbn. lia.
  - constructor; auto. apply Forall_forall. intros x Hx. apply insert_in in Hx. rewrite Forall_forall in F.
    destruct Hx as [->|Hx]; [lia|]. now apply F.
Qed.
Lemma sort_sorted l : StronglySorted Z.le (sort l).
Proof. induction l; cbn; [constructor|]. now apply insert_sorted. Qed.
Lemma distinct_spec l : StronglySorted Z.le l -> forall p, Forall (Z.le p) l ->
  StronglySorted Z.lt (distinct p l) /\ Forall (Z.lt p) (distinct p l) /\ forall x, In x (distinct p l) <-> In x l /\ x <> p.
Proof.
  induction 1 as [|h l S IH F]; intros p P; cbn [distinct].
  - split; [constructor|]. split; [constructor|]. cbn. tauto.
  - inversion P as [|? ? P1 P2]; subst. destruct (Z.eqb_spec h p).
    + subst h. destruct (IH p P2) as (A & B & C). split; [exact A|]. split; [exact B|]. intro x. rewrite C. cbn [In]. intuition congruence.
    + destruct (IH h F) as (A & B & C). split; [constructor; auto|]. split.
      * constructor; [lia|]. eapply Forall_impl; [|exact B]. cbn. lia.
      * intro x. cbn [In]. rewrite C. rewrite Forall_forall in F. split.
        -- intros [->|[I1 I2]]; [auto|]. split; auto. specialize (F x I1). lia.
        -- intros [[->|I1] I2]; [auto|]. destruct (Z.eq_dec x h); [left; congruence|right; auto].
Qed.
(** the parameters found, if addresses are positive *)
Lemma params_spec e : (forall h, occurs h e -> 0 < h) ->
  StronglySorted Z.lt (distinct 0 (sort (collect_params e))) /\ forall h, In h (distinct 0 (sort (collect_params e))) <-> occurs h e.
Proof.
  intro P. destruct (distinct_spec _ (sort_sorted (collect_params e)) 0) as (A & B & C).
  - apply Forall_forall. intros x Hx. rewrite sort_in, collect_occurs in Hx. specialize (P x Hx). lia.
  - split; [exact A|]. intro h. rewrite C, sort_in, collect_occurs. split; [tauto|]. intro H. split; auto. specialize (P h H). lia.
Qed.
Lemma get_parameters_spec e arr : (forall h, occurs h e -> 0 < h) ->
  exists l, StronglySorted Z.lt l /\ (forall h, In h l <-> occurs h e) /\ params_returned l arr (expr_get_parameters e arr).
Proof.
  intro P. destruct (params_spec e P) as [A B]. exists (distinct 0 (sort (collect_params e))). split; [exact A|]. split; [exact B|].
  unfold params_returned, expr_get_parameters. destruct arr as [n|]; [|reflexivity].
  destruct (Nat.ltb_spec n (length (distinct 0 (sort (collect_params e))))); cbn [refute bind]; [right|left]; split; auto.
Qed.
Section Context.
  Variable heap : Z -> param.
  Lemma var_valued c A vs h : describes heap c A -> valued A vs h (var_eval (Some c) (Some vs) h).
  Proof.
    intros (_ & _ & _ & _ & H1 & H2 & _). unfold var_eval.
    destruct (in_dec Z.eq_dec h A) as [I|I].
    - destruct (In_nth_error _ _ I) as [i Hi]. rewrite (H1 h i Hi). cbn [bind].
      destruct (nth_error vs i) eqn:E; [now apply (vl_value A vs h i)|now apply (vl_short A vs h i)].
    - rewrite (H2 h I). now apply vl_foreign.
  Qed.
  Lemma check_all_spec c A l : describes heap c A ->
    ((forall h, In h l -> In h A) /\ check_all c l = Ok tt) \/
    (~ (forall h, In h l -> In h A) /\ check_all c l = Err ERR_INVALID_PARAMETER).
  Proof.
    intros (_ & _ & _ & _ & H1 & H2 & _). induction l as [|h l IH]; cbn [check_all]; [left; split; [intros h []|reflexivity]|].
    destruct (in_dec Z.eq_dec h A) as [I|I].
    - destruct (In_nth_error _ _ I) as [i Hi]. rewrite (H1 h i Hi). cbn [bind].
      destruct IH as [[IH ->]|[IH ->]]; [left|right]; split; auto.
      + intros x [->|X]; auto.
      + intro X. apply IH. intros x Hx. apply X. now right.
    - rewrite (H2 h I). cbn [bind]. right. split; [|reflexivity]. intro X. apply I, X. now left.
  Qed.
  Lemma check_context_spec e ctx A : (forall h, occurs h e -> 0 < h) -> (forall c, ctx = Some c -> describes heap c A) ->
    ((ctx = None -> forall h, ~ occurs h e) /\ (ctx <> None -> forall h, occurs h e -> In h A) /\ check_context e ctx = Ok tt) \/
    (ctx = None /\ (exists h, occurs h e) /\ check_context e ctx = Err ERR_INVALID_VALUE) \/
    (ctx <> None /\ (exists h, occurs h e /\ ~ In h A) /\ check_context e ctx = Err ERR_INVALID_PARAMETER).
  Proof.
    intros P D. unfold check_context. destruct (params_spec e P) as [_ Q].
    destruct (sort (collect_params e)) as [|x l] eqn:S.
    - left. assert (N : forall h, ~ occurs h e) by (intros h H; apply Q in H; exact H).
      split; [auto|]. split; [|reflexivity]. intros _ h H. now apply N in H.
    - assert (O : occurs x e) by (apply collect_occurs, sort_in; rewrite S; now left).
      destruct ctx as [c|].
      + specialize (D c eq_refl). destruct (check_all_spec c A (distinct 0 (x :: l)) D) as [[C ->]|[C ->]].
        * left. split; [discriminate|]. split; [|reflexivity]. intros _ h H. apply C. now apply Q.
        * right. right. split; [discriminate|]. split; [|reflexivity].
          assert (E : exists h, In h (distinct 0 (x :: l)) /\ ~ In h A).
          { clear - C. induction (distinct 0 (x :: l)) as [|y m IH]; [exfalso; apply C; intros h []|].
            destruct (in_dec Z.eq_dec y A) as [I|I]; [|exists y; split; [now left|auto]].
            destruct IH as (z & Z1 & Z2); [|exists z; split; [now right|auto]].
            intro X. apply C. intros h [->|H]; auto. }
          destruct E as (h & E1 & E2). exists h. split; auto. now apply Q.
      + right. left. split; [reflexivity|]. split; eauto.
  Qed.
  (** two arrays over two lists that agree on the parameters that occur *)
  Lemma eval_depends jen c A vs c' A' vs' e : describes heap c A -> describes heap c' A' ->
    (forall h r r', occurs h e -> valued A vs h r -> valued A' vs' h r' -> r = r') ->
    eval heap jen (Some c) (Some vs) e = eval heap jen (Some c') (Some vs') e.
  Proof.
    intros D D' H. apply eval_ext. intros h O. apply (H h); auto; now apply var_valued.
  Qed.
End Context.

(** ** Inactive values spread or disappear *)
Definition mono (r r' : res datum) : Prop := forall v v', r = Ok v -> r' = Ok v' -> fades v v'.
Lemma fades_refl v : fades v v. Proof. now left. Qed.
Lemma fades_inactive v : fades v ccs_inactive. Proof. now right. Qed.
Lemma fade_type v : d_val v = VInactive -> is_inactive v = true.
Proof. unfold is_inactive. now intros ->. Qed.
Lemma binary_mono (f : datum -> datum -> res datum) l l' r r' :
  (forall x y, is_inactive x = true \/ is_inactive y = true -> forall v, f x y = Ok v -> d_val v = VInactive) ->
  mono l l' -> mono r r' -> mono (do x <- l; do y <- r; f x y) (do x <- l'; do y <- r'; f x y).
Proof.
  intros I L R v v' E E'. destruct l as [x| |]; [|discriminate..]. destruct r as [y| |]; [|discriminate..].
  destruct l' as [x'| |]; [|discriminate..]. destruct r' as [y'| |]; [|discriminate..]. cbn [bind] in *.
  destruct (L x x' eq_refl eq_refl) as [->|X]; [|right; apply (I x' y'); auto; left; now apply fade_type].
  destruct (R y y' eq_refl eq_refl) as [->|Y]; [|right; apply (I x y'); auto; right; now apply fade_type].
  left. congruence.
Qed.
Lemma unary_mono (f : datum -> res datum) l l' :
  (forall x, is_inactive x = true -> forall v, f x = Ok v -> d_val v = VInactive) ->
  mono l l' -> mono (do x <- l; f x) (do x <- l'; f x).
Proof.
  intros I L v v' E E'. destruct l as [x| |]; [|discriminate..]. destruct l' as [x'| |]; [|discriminate..]. cbn [bind] in *.
  destruct (L x x' eq_refl eq_refl) as [->|X]; [left; congruence|right; apply (I x'); auto; now apply fade_type].
Qed.
Lemma not_mono l l' : mono l l' -> mono (not_eval l) (not_eval l').
Proof. apply unary_mono. intros x -> v E. now injection E as <-. Qed.
Lemma positive_mono l l' : mono l l' -> mono (positive_eval l) (positive_eval l').
Proof. apply unary_mono. intros x -> v E. now injection E as <-. Qed.
Lemma negative_mono l l' : mono l l' -> mono (negative_eval l) (negative_eval l').
Proof. apply unary_mono. intros x -> v E. now injection E as <-. Qed.
Ltac either x y := intros x y I v E; destruct (is_inactive x); [now injection E as <-|];
  destruct (is_inactive y); [now injection E as <-|destruct I; discriminate].
Lemma and_mono l l' r r' : mono l l' -> mono r r' -> mono (and_eval l r) (and_eval l' r').
Proof. apply binary_mono. either x y. Qed.
Lemma arith_mono nz fi ff l l' r r' : mono l l' -> mono r r' -> mono (arith_eval nz fi ff l r) (arith_eval nz fi ff l' r').
Proof. apply binary_mono. either x y. Qed.
Lemma equal_mono jen neg pl pr l l' r r' : mono l l' -> mono r r' -> mono (equal_eval jen neg pl pr l r) (equal_eval jen neg pl pr l' r').
Proof. apply binary_mono. either x y. Qed.
Lemma order_mono jen test pl pr l l' r r' : mono l l' -> mono r r' -> mono (order_eval jen test pl pr l r) (order_eval jen test pl pr l' r').
Proof.
  apply binary_mono. intros x y I v E. destruct (refute _ _); [|discriminate..]. cbn [bind] in E.
  destruct (is_inactive x); [now injection E as <-|]. destruct (is_inactive y); [now injection E as <-|destruct I; discriminate].
Qed.
Lemma or_mono l l' r r' : mono l l' -> mono r r' -> mono (or_eval l r) (or_eval l' r').
Proof.
  intros L R v v'. unfold or_eval. destruct l as [x| |]; [|discriminate..]. destruct r as [y| |]; [|discriminate..].
  destruct l' as [x'| |]; [|discriminate..]. destruct r' as [y'| |]; [|discriminate..]. cbn [bind].
  destruct (negb (is_bool x) && negb (is_inactive x)) eqn:T1; [discriminate|].
  destruct (negb (is_bool y) && negb (is_inactive y)) eqn:T2; [discriminate|].
  destruct (negb (is_bool x') && negb (is_inactive x')) eqn:T3; [discriminate|].
  destruct (negb (is_bool y') && negb (is_inactive y')) eqn:T4; [discriminate|]. cbn [refute bind].
  assert (B : forall z z', fades z z' -> z' = z \/ (is_bool z' = false /\ is_inactive z' = true)).
  { intros z z' [->|H]; [now left|right]. unfold is_bool, is_inactive. rewrite H. split; reflexivity. }
  destruct (B _ _ (L x x' eq_refl eq_refl)) as [->|[X1 X2]]; destruct (B _ _ (R y y' eq_refl eq_refl)) as [->|[Y1 Y2]].
  - intros E E'. left. congruence.
  - rewrite Y1, Y2. cbn [andb]. destruct (is_bool x && truth x); [intros E E'; left; congruence|].
    intros E E'. right. destruct (is_inactive x); now injection E' as <-.
  - rewrite X1, X2. cbn [andb]. destruct (is_bool y && truth y) eqn:TY.
    + intros E E'. left. destruct (is_bool x && truth x); congruence.
    + intros E E'. right. now injection E' as <-.
  - rewrite X1, X2, Y1. cbn [andb]. intros E E'. right. now injection E' as <-.
Qed.

(** membership: [inactive_before] tells whether an inactive element was met *)
Lemma inactive_differs x y : is_inactive x = false -> d_val y = VInactive -> snd (test_equal x y) = false.
Proof.
  unfold is_inactive, test_equal. intros N E. rewrite E. destruct (d_val x); try reflexivity; try discriminate.
  cbn [type_of] in *. rewrite N. reflexivity.
Qed.
Lemma in_loop_cases jen p x rs : forall b v, in_loop jen p x rs b = Ok v -> v = ccs_true \/ v = ccs_false \/ v = ccs_inactive.
Proof.
  induction rs as [|r rs IH]; intros b v; cbn [in_loop].
  - intro E. injection E as <-. destruct b; auto.
  - destruct r as [y| |]; [|discriminate..]. cbn [bind]. destruct (check_parameters _ _ _); [|discriminate..]. cbn [bind].
    destruct (snd _); [intro E; injection E as <-; auto|apply IH].
Qed.
Lemma in_loop_inactive jen p x rs : forall v, in_loop jen p x rs true = Ok v -> v = ccs_true \/ v = ccs_inactive.
Proof.
  induction rs as [|r rs IH]; intros v; cbn [in_loop].
  - intro E. injection E as <-. auto.
  - destruct r as [y| |]; [|discriminate..]. cbn [bind]. destruct (check_parameters _ _ _); [|discriminate..]. cbn [bind].
    destruct (snd _); [intro E; injection E as <-; auto|apply IH].
Qed.
Lemma in_loop_mono jen p x rs rs' : is_inactive x = false -> Forall2 mono rs rs' ->
  forall b b', (b = true -> b' = true) -> mono (in_loop jen p x rs b) (in_loop jen p x rs' b').
Proof.
  intros N. induction 1 as [|r r' rs rs' M F IH]; intros b b' B v v' E E'.
  - cbn [in_loop] in *. injection E as <-. injection E' as <-. destruct b, b'; try (now left); try (now right).
    specialize (B eq_refl). discriminate.
  - cbn [in_loop] in E, E'. destruct r as [y| |]; [|discriminate..]. destruct r' as [y'| |]; [|discriminate..]. cbn [bind] in *.
    destruct (check_parameters jen p y); [|discriminate..]. cbn [bind] in E.
    destruct (check_parameters jen p y'); [|discriminate..]. cbn [bind] in E'.
    destruct (M y y' eq_refl eq_refl) as [->|Y].
    + destruct (snd (test_equal x y)); [left; congruence|]. apply (IH (b || is_inactive y) (b' || is_inactive y)); auto.
      destruct b, b', (is_inactive y); cbn; auto.
    + rewrite (inactive_differs x y' N Y) in E'. rewrite (fade_type y' Y), orb_true_r in E'.
      destruct (snd (test_equal x y)).
      * apply in_loop_inactive in E'. destruct E' as [->| ->]; [left; congruence|now right].
      * apply (IH (b || is_inactive y) true); auto.
Qed.
Lemma in_mono jen p l l' rs rs' : mono l l' -> Forall2 mono rs rs' -> mono (in_eval jen p l rs) (in_eval jen p l' rs').
Proof.
  intros L F v v'. unfold in_eval. destruct l as [x| |]; [|discriminate..]. destruct l' as [x'| |]; [|discriminate..]. cbn [bind].
  destruct (L x x' eq_refl eq_refl) as [->|X].
  - destruct (is_inactive x) eqn:N; [intros E E'; left; congruence|]. intros E E'. apply (in_loop_mono jen p x rs rs' N F false false); auto.
  - rewrite (fade_type x' X). intros _ E'. right. now injection E' as <-.
Qed.
Lemma eval_mono heap jen ctx values ctx' values' e :
  (forall h, occurs h e -> mono (var_eval ctx values h) (var_eval ctx' values' h)) ->
  mono (eval heap jen ctx values e) (eval heap jen ctx' values' e).
Proof.
  cut ((forall h, occurs h e -> mono (var_eval ctx values h) (var_eval ctx' values' h)) ->
    mono (eval heap jen ctx values e) (eval heap jen ctx' values' e) /\
    forall n, In n (xnodes e) -> mono (eval heap jen ctx values n) (eval heap jen ctx' values' n)). { intros H K. exact (proj1 (H K)). }
  induction e as [o d|o h|o t nodes IH] using expr_rect'; intro H; cbn [eval xnodes].
  - split; [|intros n []]. intros v v' E E'. left. congruence.
  - split; [apply H; constructor|intros n []].
  - assert (K : forall n, In n nodes -> mono (eval heap jen ctx values n) (eval heap jen ctx' values' n) /\
       forall m, In m (xnodes n) -> mono (eval heap jen ctx values m) (eval heap jen ctx' values' m)).
    { rewrite Forall_forall in IH. intros n Hn. apply IH; auto. intros h Hh. apply H. now apply (occ_op h o t nodes n). }
    split; [|intros n Hn; now apply K]. clear IH H.
    assert (NE : forall c, mono (Err c) (Err c)) by (intros c v v' E; discriminate).
    assert (NU : forall c, mono (UB c) (UB c)) by (intros c v v' E; discriminate).
    destruct (t =? XLIST); [apply NE|]. destruct (t =? XIN).
    + destruct nodes as [|l [|e2 rest]]; [apply NU|apply NU|]. destruct e2 as [| |o2 t2 elems]; try apply NE.
      destruct (t2 =? XLIST); [|apply NE].
      apply in_mono; [exact (proj1 (K l (or_introl eq_refl)))|].
      assert (KE := proj2 (K (EOp o2 t2 elems) (or_intror (or_introl eq_refl)))). cbn [xnodes] in KE. clear K.
      induction elems as [|x elems IHe]; cbn [map]; constructor; [apply KE; now left|]. apply IHe. intros m Hm. apply KE. now right.
    + destruct nodes as [|a rest]; [apply NU|]. assert (Ka := proj1 (K a (or_introl eq_refl))).
      destruct (t =? XPOSITIVE); [now apply positive_mono|]. destruct (t =? XNEGATIVE); [now apply negative_mono|].
      destruct (t =? XNOT); [now apply not_mono|].
      destruct rest as [|b rest]; [apply NU|]. assert (Kb := proj1 (K b (or_intror (or_introl eq_refl)))). clear K.
      destruct (t =? XOR); [now apply or_mono|]. destruct (t =? XAND); [now apply and_mono|].
      destruct (t =? XEQUAL); [now apply equal_mono|]. destruct (t =? XNOT_EQUAL); [now apply equal_mono|].
      destruct (t =? XLESS); [now apply order_mono|]. destruct (t =? XGREATER); [now apply order_mono|].
      destruct (t =? XLESS_OR_EQUAL); [now apply order_mono|]. destruct (t =? XGREATER_OR_EQUAL); [now apply order_mono|].
      destruct (t =? XADD); [now apply arith_mono|]. destruct (t =? XSUBSTRACT); [now apply arith_mono|].
      destruct (t =? XMULTIPLY); [now apply arith_mono|]. destruct (t =? XDIVIDE); [now apply arith_mono|].
      destruct (t =? XMODULO); [now apply arith_mono|]. apply NU.
Qed.
Lemma eval_fades heap jen c vs vs' e v v' : Forall2 fades vs vs' ->
  eval heap jen (Some c) (Some vs) e = Ok v -> eval heap jen (Some c) (Some vs') e = Ok v' -> fades v v'.
Proof.
  intro F. apply eval_mono. intros h _ w w'. unfold var_eval. destruct (get_index c h) as [i| |]; [|discriminate..]. cbn [bind].
  assert (G : forall i, match nth_error vs i, nth_error vs' i with Some a, Some b => fades a b | None, None => True | _, _ => False end).
  { clear - F. induction F as [|a b l l' H F IH]; intros [|i]; cbn; auto. apply IH. }
  specialize (G i). destruct (nth_error vs i), (nth_error vs' i); try discriminate. intros E E'. congruence.
Qed.

(** ** Creation *)
Lemma literal_type_iff d : wf_datum d -> (literal_type d = true <-> literal_value (d_val d)).
Proof.
  unfold wf_datum, literal_type, literal_value. destruct (d_val d); cbn; intro W; try (split; [discriminate|tauto]); try tauto.
  unfold TYPE_NONE, TYPE_STRING. split; [|tauto]. lia.
Qed.
Lemma arity_cases t n : (takes t n /\ check_arity t (Z.of_nat n) = Ok tt) \/ (~ takes t n /\ check_arity t (Z.of_nat n) = Err ERR_INVALID_VALUE).
Proof.
  unfold check_arity, XOR, XLIST. destruct (Z.ltb_spec t 0); [right; unfold takes; split; [lia|reflexivity]|].
  destruct (Z.ltb_spec 17 t); [right; unfold takes; split; [lia|reflexivity]|]. cbn [orb refute bind].
  assert (E : t = 0 \/ t = 1 \/ t = 2 \/ t = 3 \/ t = 4 \/ t = 5 \/ t = 6 \/ t = 7 \/ t = 8 \/ t = 9 \/ t = 10 \/ t = 11 \/ t = 12 \/
              t = 13 \/ t = 14 \/ t = 15 \/ t = 16 \/ t = 17) by lia.
  assert (AR : (t = 17 /\ arity t = -1) \/ (13 <= t <= 15 /\ arity t = 1) \/ ((0 <= t <= 12 \/ t = 16) /\ arity t = 2)).
  { repeat destruct E as [E|E]; subst t;
      first [left; split; [lia|reflexivity]|right; left; split; [lia|reflexivity]|right; right; split; [lia|reflexivity]]. }
  unfold takes. destruct AR as [[R ->]|[[R ->]|[R ->]]].
  - left. split; [lia|reflexivity].
  - cbn [Z.leb Z.compare andb]. destruct (Z.eqb_spec (Z.of_nat n) 1); cbn; [left|right]; split; try reflexivity; lia.
  - cbn [Z.leb Z.compare andb]. destruct (Z.eqb_spec (Z.of_nat n) 2); cbn; [left|right]; split; try reflexivity; lia.
Qed.
Section Make.
  Variable otype : Z -> option Z.
  Variable xheap : Z -> expr.
  Lemma check_node_cases d : wf_datum d ->
    (~ dead_argument otype d /\ ~ wrong_argument otype d /\ check_node otype d = Ok tt /\
      forall id, exists e, make_node otype xheap id d = Ok e /\ argument otype xheap d e) \/
    (dead_argument otype d /\ check_node otype d = Err ERR_INVALID_OBJECT) \/
    (wrong_argument otype d /\ check_node otype d = Err ERR_INVALID_VALUE).
  Proof.
    intro W. unfold dead_argument, wrong_argument, check_node, make_node, create_literal, create_variable. pose proof (literal_type_iff d W) as L.
    destruct (d_val d) eqn:E; cbn [literal_value] in L;
      try (left; split; [intros (g & G & _); discriminate|]; split; [tauto|]; rewrite (proj2 L Logic.I); cbn [negb refute bind];
           split; [reflexivity|]; intro id; eexists; split; [reflexivity|]; rewrite <- ?E; apply arg_lit; [now rewrite E|reflexivity]);
      try (right; right; split; [exact Logic.I|]; destruct (literal_type d); [exfalso; now apply L|reflexivity]).
    destruct (otype h) as [t|] eqn:T.
    2:{ right. left. split; [exists h; auto|reflexivity]. }
    destruct (Z.eqb_spec t OBJ_PARAMETER) as [->|N1]; [|destruct (Z.eqb_spec t OBJ_EXPRESSION) as [->|N2]].
    - left. split; [intros (g & G & G'); injection G as <-; congruence|]. split; [intros (t & G & G' & G''); injection G as <-; now apply G'|].
      split; [reflexivity|]. intro id. eexists. split; [reflexivity|]. now apply arg_param.
    - left. split; [intros (g & G & G'); injection G as <-; congruence|]. split; [intros (t & G & G' & G''); injection G as <-; now apply G''|].
      split; [reflexivity|]. intro id. eexists. split; [reflexivity|]. now apply arg_expr.
    - right. right. split; [exists t; auto|reflexivity].
  Qed.
  Lemma check_nodes_cases l : Forall wf_datum l ->
    (Forall (fun d => ~ dead_argument otype d /\ ~ wrong_argument otype d) l /\ check_nodes otype l = Ok tt /\
      forall ids i, exists es, make_nodes otype xheap ids i l = Ok es /\ Forall2 (argument otype xheap) l es) \/
    (exists l1 d l2, l = l1 ++ d :: l2 /\ Forall (fun d => ~ dead_argument otype d /\ ~ wrong_argument otype d) l1 /\
      ((dead_argument otype d /\ check_nodes otype l = Err ERR_INVALID_OBJECT) \/
       (wrong_argument otype d /\ check_nodes otype l = Err ERR_INVALID_VALUE))).
  Proof.
    induction 1 as [|d l W F IH]; cbn [check_nodes make_nodes].
    - left. split; [constructor|]. split; [reflexivity|]. intros ids i. exists []. split; [reflexivity|constructor].
    - destruct (check_node_cases d W) as [(A & B & -> & C)|[(A & ->)|(A & ->)]]; cbn [bind].
      + destruct IH as [(F1 & -> & M)|(l1 & x & l2 & -> & F1 & IH)].
        * left. split; [constructor; auto|]. split; [reflexivity|]. intros ids i. destruct (C (ids i)) as (e & -> & Ae). cbn [bind].
          destruct (M ids (S i)) as (es & -> & As). cbn [bind]. exists (e :: es). split; [reflexivity|constructor; auto].
        * right. exists (d :: l1), x, l2. split; [reflexivity|]. split; [constructor; auto|]. exact IH.
      + right. exists [], d, l. split; [reflexivity|]. split; [constructor|]. left. auto.
      + right. exists [], d, l. split; [reflexivity|]. split; [constructor|]. right. auto.
  Qed.
  Lemma create_spec id ids t l : Forall wf_datum l ->
    (takes t (length l) /\ (exists es, Forall2 (argument otype xheap) l es /\
        create_expression otype xheap id ids t l = Ok (EOp (mkObj id None) t es))) \/
    (~ takes t (length l) /\ create_expression otype xheap id ids t l = Err ERR_INVALID_VALUE) \/
    (takes t (length l) /\ exists l1 d l2, l = l1 ++ d :: l2 /\ Forall (fun d => ~ dead_argument otype d /\ ~ wrong_argument otype d) l1 /\
      ((dead_argument otype d /\ create_expression otype xheap id ids t l = Err ERR_INVALID_OBJECT) \/
       (wrong_argument otype d /\ create_expression otype xheap id ids t l = Err ERR_INVALID_VALUE))).
  Proof.
    intro W. unfold create_expression, lenZ. destruct (arity_cases t (length l)) as [[T ->]|[T ->]]; cbn [bind]; [|right; left; auto].
    destruct (check_nodes_cases l W) as [(F & -> & M)|(l1 & d & l2 & E & F & C)]; cbn [bind].
    - left. split; [exact T|]. destruct (M ids 0%nat) as (es & -> & A). exists es. split; [exact A|reflexivity].
    - right. right. split; [exact T|]. exists l1, d, l2. split; [exact E|]. split; [exact F|].
      destruct C as [[C ->]|[C ->]]; [left|right]; split; auto.
  Qed.
  (** what is created is well formed *)
  Lemma argument_wf (known : Z -> Prop) d e : wf_datum d -> (forall h, otype h = Some 2 -> known h) ->
    (forall h, otype h = Some 3 -> wf_expr known (xheap h)) -> argument otype xheap d e -> wf_expr known e.
  Proof.
    intros W K X A. destruct A; [auto|constructor; auto|]. apply wf_lit; [exact H|exact W|reflexivity].
  Qed.
  Lemma create_wf (known : Z -> Prop) id ids t l e : Forall wf_datum l -> (forall h, otype h = Some 2 -> known h) ->
    (forall h, otype h = Some 3 -> wf_expr known (xheap h)) ->
    create_expression otype xheap id ids t l = Ok e -> wf_expr known e.
  Proof.
    intros W K X E. destruct (create_spec id ids t l W) as [(T & es & A & E')|[(T & E')|(T & l1 & d & l2 & _ & _ & [[_ E']|[_ E']])]];
      rewrite E' in E; try discriminate. injection E as <-. apply wf_op.
    - replace (length es) with (length l); [exact T|]. clear - A. induction A; cbn; congruence.
    - clear - A W K X. induction A; constructor; inversion W; subst; eauto using argument_wf.
  Qed.
End Make.
