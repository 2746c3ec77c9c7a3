(** Proofs about comparisons of evaluations. *)
From Coq Require Import ZArith List Bool Lia.
From Verif Require Import Base Datum FloatModel FloatSpec FloatProofs CmpModel CmpSpec CmpProofs ParamModel ParamSpec ParamProofs.
From Verif Require Import ContextModel ContextSpec ExprModel EvalModel EvalSpec.
Import ListNotations.
Open Scope Z_scope.

Lemma failed_bind {A B} (r : res A) (f : A -> res B) : (exists a, r = Ok a) \/ failed r (bind r f).
Proof. destruct r; cbn; [left; eauto|now right|now right]. Qed.
Lemma klt_asym a b : klt a b -> ~ klt b a.
Proof. destruct a, b; cbn; intros; try contradiction. lia. Qed.
Lemma lower_asym x y : lower x y -> ~ lower y x.
Proof. intros H. destruct H as [i j H|f g H]; intro K; inversion K; subst; [lia|]. now apply (klt_asym _ _ H). Qed.
Lemma lower_commensurable x y : lower x y -> commensurable x y.
Proof. intro H. destruct H; unfold commensurable; cbn; auto. Qed.
Lemma commensurable_sym x y : commensurable x y -> commensurable y x.
Proof. unfold commensurable. intros [E H]. rewrite <- E. auto. Qed.
Lemma preferred_asym t x y : preferred t x y -> ~ preferred t y x.
Proof. intros [[T H]|[T H]] [[T' K]|[T' K]]; try contradiction; now apply (lower_asym _ _ H). Qed.
Lemma gains_loses c : gains c -> ~ loses c.
Proof.
  intros (x & y & L & R & P) (x' & y' & L' & R' & P'). rewrite L in L'. rewrite R in R'. injection L' as <-. injection R' as <-.
  now apply (preferred_asym _ _ _ P).
Qed.

(** The numbers *)
Lemma numeric_compare_spec x y : commensurable x y ->
  (numeric_compare x y = -1 /\ lower x y) \/ (numeric_compare x y = 1 /\ lower y x) \/
  (numeric_compare x y = 0 /\ ~ lower x y /\ ~ lower y x).
Proof.
  intros _. destruct x as [|i|f| | | | |], y as [|j|g| | | | |]; cbn [numeric_compare];
    try (right; right; split; [reflexivity|split; intro K; inversion K]; fail).
  - destruct (Z.ltb_spec i j); [left; split; [reflexivity|now constructor]|]. rewrite Z.gtb_ltb. destruct (Z.ltb_spec j i).
    + right. left. split; [reflexivity|now constructor].
    + right. right. split; [reflexivity|]. split; intro K; inversion K; lia.
  - destruct (flt f g) eqn:E1. { left. split; [reflexivity|]. constructor. now apply flt_key. }
    unfold fgt. destruct (flt g f) eqn:E2. { right. left. split; [reflexivity|]. constructor. now apply flt_key. }
    right. right. split; [reflexivity|].
    split; intro K; inversion K as [|? ? H]; apply flt_key in H; congruence.
Qed.
Lemma type_test x y : (negb (type_of x =? TYPE_INT) && negb (type_of x =? TYPE_FLOAT)) || negb (type_of x =? type_of y) = false <->
  commensurable x y.
Proof.
  unfold commensurable. destruct (Z.eqb_spec (type_of x) TYPE_INT), (Z.eqb_spec (type_of x) TYPE_FLOAT), (Z.eqb_spec (type_of x) (type_of y));
    cbn; split; intros H; try discriminate; auto; destruct H as [H1 [H2|H2]]; congruence.
Qed.

Section World.
  Variable heap : Z -> param.
  Variable jen : list Z -> Z.
  Variable w : world.

  (** state of the loop after the columns [l] *)
  Definition standing (l : list column) (r : Z) : Prop :=
    Forall measurable l /\
    ((r = 0 /\ ~ Exists gains l /\ ~ Exists loses l) \/ (r = -1 /\ Exists gains l /\ ~ Exists loses l) \/
     (r = 1 /\ Exists loses l /\ ~ Exists gains l)).
  Lemma standing_conflict l r : standing l r -> ~ conflict l.
  Proof. intros (_ & [(_ & A & B)|[(_ & A & B)|(_ & A & B)]]) [G L]; contradiction. Qed.
  Lemma exists_snoc {A} (P : A -> Prop) l c : Exists P (l ++ [c]) <-> Exists P l \/ P c.
  Proof. rewrite Exists_app. split; intros [H|H]; auto. right. inversion H as [? ? K|? ? K]; [exact K|inversion K]. Qed.
  Lemma forall_snoc {A} (P : A -> Prop) l c : Forall P l -> P c -> Forall P (l ++ [c]).
  Proof. intros. apply Forall_app. auto. Qed.

  Definition col (a b : Z) (o : expr * Z) : column :=
    mkColumn (snd o) (value_of heap jen w a (fst o)) (value_of heap jen w b (fst o)).
  Lemma compare_loop_spec a b : forall objs l r, standing l r ->
    pareto (l ++ map (col a b) objs) (compare_loop heap jen w a b objs r).
  Proof.
    induction objs as [|[x t] objs IH]; intros l r S; cbn [compare_loop map].
    - rewrite app_nil_r. destruct S as (M & [(-> & A & B)|[(-> & A & B)|(-> & A & B)]]).
      + now apply pareto_equivalent.
      + now apply pareto_better.
      + now apply pareto_worse.
    - set (c := col a b (x, t)). set (rest := map (col a b) objs).
      pose proof (standing_conflict _ _ S) as NC. destruct S as [M S].
      assert (EL : objective_eval heap jen w a x = k_left c) by reflexivity.
      assert (ER : objective_eval heap jen w b x = k_right c) by reflexivity.
      rewrite EL, ER. destruct (k_left c) as [va| |] eqn:KL; [|apply (pareto_left l c rest); auto; now rewrite KL..].
      cbn [bind]. destruct (k_right c) as [vb| |] eqn:KR; [|apply (pareto_right l c rest va); auto; now rewrite KR..].
      cbn [bind]. destruct ((negb (type_of (d_val va) =? TYPE_INT) && negb (type_of (d_val va) =? TYPE_FLOAT)) || negb (type_of (d_val va) =? type_of (d_val vb))) eqn:TT.
      + apply pareto_unlike; auto. exists va, vb. split; [exact KL|]. split; [exact KR|]. intro C. apply type_test in C. congruence.
      + apply type_test in TT. assert (MC : measurable c) by (exists va, vb; auto).
        pose proof (forall_snoc _ _ _ M MC) as M'.
        replace (l ++ c :: rest) with ((l ++ [c]) ++ rest) by now rewrite <- app_assoc.
        assert (GL : gains c <-> preferred t (d_val va) (d_val vb)).
        { split; [|intro P; exists va, vb; auto]. intros (x' & y' & L & R & P). rewrite KL in L. rewrite KR in R. injection L as <-. injection R as <-. exact P. }
        assert (LL : loses c <-> preferred t (d_val vb) (d_val va)).
        { split; [|intro P; exists va, vb; auto]. intros (x' & y' & L & R & P). rewrite KL in L. rewrite KR in R. injection L as <-. injection R as <-. exact P. }
        assert (X : let cmp := numeric_compare (d_val va) (d_val vb) in
           (cmp = 0 /\ ~ gains c /\ ~ loses c) \/
           (cmp <> 0 /\ (if t =? MAXIMIZE then - cmp else cmp) = -1 /\ gains c) \/
           (cmp <> 0 /\ (if t =? MAXIMIZE then - cmp else cmp) = 1 /\ loses c)).
        { cbv zeta. rewrite GL, LL. unfold preferred, MAXIMIZE. destruct (numeric_compare_spec _ _ TT) as [(-> & L)|[(-> & L)|(-> & L & L')]]; cbv zeta;
            destruct (Z.eqb_spec t 1) as [->|T]; try (right; left; split; [lia|split; [lia|tauto]]); try (right; right; split; [lia|split; [lia|tauto]]);
            left; split; try reflexivity; tauto. }
        cbv zeta in X. destruct X as [(E & NG & NL)|[(E & D & G)|(E & D & L)]].
        * rewrite E. cbn [Z.eqb]. apply IH. split; [exact M'|]. rewrite !exists_snoc. tauto.
        * apply Z.eqb_neq in E. rewrite E, D. pose proof (gains_loses c G) as NL. unfold EQUIVALENT. destruct (Z.eqb_spec r 0) as [R|R].
          -- apply IH. split; [exact M'|]. rewrite !exists_snoc. right. left. split; [reflexivity|]. destruct S as [(_ & A & B)|[(R' & _)|(R' & _)]]; try lia. tauto.
          -- destruct (Z.eqb_spec r (-1)) as [R'|R'].
             ++ apply IH. split; [exact M'|]. rewrite !exists_snoc. right. left. split; [exact R'|]. destruct S as [(? & _)|[(_ & A & B)|(? & _)]]; try lia. tauto.
             ++ apply pareto_conflict; [exact M'|]. unfold conflict. rewrite !exists_snoc. destruct S as [(? & _)|[(? & _)|(_ & A & B)]]; try lia. tauto.
        * apply Z.eqb_neq in E. rewrite E, D. assert (NG : ~ gains c) by (intro G; now apply (gains_loses c G)). unfold EQUIVALENT. destruct (Z.eqb_spec r 0) as [R|R].
          -- apply IH. split; [exact M'|]. rewrite !exists_snoc. right. right. split; [reflexivity|]. destruct S as [(_ & A & B)|[(R' & _)|(R' & _)]]; try lia. tauto.
          -- destruct (Z.eqb_spec r 1) as [R'|R'].
             ++ apply IH. split; [exact M'|]. rewrite !exists_snoc. right. right. split; [exact R'|]. destruct S as [(? & _)|[(? & _)|(_ & A & B)]]; try lia. tauto.
             ++ apply pareto_conflict; [exact M'|]. unfold conflict. rewrite !exists_snoc. destruct S as [(? & _)|[(_ & A & B)|(? & _)]]; try lia. tauto.
  Qed.
  Definition wf_features : Prop := forall f, wf_binding (w_features w f).
  Lemma features_cmp_same f g : wf_features -> features_cmp w f g = 0 <-> same_binding (w_features w f) (w_features w g).
  Proof. intro W. unfold features_cmp. destruct binding_cmp_total as [H _]. apply H; apply W. Qed.
  Theorem compare_spec feat a b : wf_features -> compares heap jen feat w a b (compare heap jen w feat a b).
  Proof.
    intro W. unfold compare. destruct (Z.eqb_spec a b) as [->|N]; [now apply compares_itself|].
    destruct (Z.eqb_spec (ev_result (w_eval w a)) 0) as [Ra|Ra]; cbn [negb orb refute bind]; [|apply compares_refused; auto].
    destruct (Z.eqb_spec (ev_result (w_eval w b)) 0) as [Rb|Rb]; cbn [negb orb refute bind]; [|apply compares_refused; auto].
    destruct (Z.eqb_spec (ev_space (w_eval w a)) (ev_space (w_eval w b))) as [Sp|Sp]; cbn [negb orb refute bind]; [|apply compares_refused; auto].
    destruct feat; cbn [andb].
    - destruct (Z.eqb_spec (features_cmp w (ev_features (w_eval w a)) (ev_features (w_eval w b))) 0) as [F|F]; cbn [negb].
      + apply compares_objectives; auto. { intros _. now apply features_cmp_same. }
        apply (compare_loop_spec a b _ []). split; [constructor|]. left. repeat split; intro K; inversion K.
      + apply compares_features; auto. intro K. apply F. now apply features_cmp_same.
    - apply compares_objectives; auto; [discriminate|].
      apply (compare_loop_spec a b _ []). split; [constructor|]. left. repeat split; intro K; inversion K.
  Qed.
End World.
