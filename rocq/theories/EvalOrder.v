(** Comparison of evaluations as a partial order. *)
From Coq Require Import ZArith List Bool Lia.
From Verif Require Import Base Datum FloatModel FloatSpec FloatProofs CodecModel CodecSpec CmpModel CmpSpec CmpProofs ParamModel.
From Verif Require Import ContextModel ContextSpec ExprModel EvalModel EvalSpec EvalProofs.
Import ListNotations.
Open Scope Z_scope.

(** ** The verdict is unambiguous *)
Inductive broken (c : column) : res Z -> Prop :=
| broken_unlike : measured c (fun x y => ~ commensurable x y) -> broken c (Ok 2)
| broken_left r : failed (k_left c) r -> broken c r
| broken_right x r : k_left c = Ok x -> failed (k_right c) r -> broken c r.
Lemma broken_measurable c r : broken c r -> ~ measurable c.
Proof.
  intros B (x & y & L & R & C). destruct B as [(x' & y' & L' & R' & N)|r F|x' r L' F]; rewrite ?L, ?R in *; cbn in *; try contradiction; try discriminate.
  injection L' as <-. injection R' as <-. contradiction.
Qed.
Lemma failed_func {A B} (r : res A) (s t : res B) : failed r s -> failed r t -> s = t.
Proof. destruct r; cbn; [contradiction|congruence|congruence]. Qed.
Lemma broken_func c r r' : broken c r -> broken c r' -> r = r'.
Proof.
  intros B B'. destruct B as [(x & y & L & R & N)|r F|x r L F], B' as [(x' & y' & L' & R' & N')|r' F'|x' r' L' F'];
    rewrite ?L, ?R, ?L', ?R' in *; cbn in *; try contradiction; try discriminate; try reflexivity; eapply failed_func; eassumption.
Qed.
Lemma pareto_cases l r : pareto l r ->
  (Forall measurable l /\ ~ conflict l /\
     ((r = Ok (-1) /\ Exists gains l) \/ (r = Ok 1 /\ Exists loses l) \/ (r = Ok 0 /\ ~ Exists gains l /\ ~ Exists loses l))) \/
  (r = Ok 2 /\ exists l1 l2, l = l1 ++ l2 /\ Forall measurable l1 /\ conflict l1) \/
  (exists l1 c l2, l = l1 ++ c :: l2 /\ Forall measurable l1 /\ ~ conflict l1 /\ broken c r).
Proof.
  intro P. destruct P; unfold conflict in *.
  - left. tauto.
  - left. tauto.
  - left. tauto.
  - right. left. split; [reflexivity|]. eauto 6.
  - right. right. exists l1, c, l2. do 3 (split; [assumption||reflexivity|]). now apply broken_unlike.
  - right. right. exists l1, c, l2. do 3 (split; [assumption||reflexivity|]). now apply broken_left.
  - right. right. exists l1, c, l2. do 3 (split; [assumption||reflexivity|]). now apply (broken_right _ x).
Qed.
Lemma app_cases {A} (l1 l2 m1 m2 : list A) : l1 ++ l2 = m1 ++ m2 ->
  (exists k, m1 = l1 ++ k /\ l2 = k ++ m2) \/ (exists k, l1 = m1 ++ k /\ m2 = k ++ l2).
Proof.
  revert m1. induction l1 as [|x l1 IH]; intros m1 E.
  - left. exists m1. auto.
  - destruct m1 as [|y m1]; [right; exists (x :: l1); auto|]. injection E as -> E. destruct (IH m1 E) as [(k & -> & ->)|(k & -> & ->)]; [left|right]; exists k; auto.
Qed.
Lemma conflict_app l1 l2 : conflict l1 -> conflict (l1 ++ l2).
Proof. intros [G L]. split; apply Exists_app; now left. Qed.
Lemma pareto_func l r r' : pareto l r -> pareto l r' -> r = r'.
Proof.
  intros P P'. apply pareto_cases in P, P'.
  assert (AB : forall l1 l2, l = l1 ++ l2 -> conflict l1 -> ~ conflict l -> False).
  { intros l1 l2 -> C N. apply N. now apply conflict_app. }
  assert (AC : forall l1 c l2 r, l = l1 ++ c :: l2 -> broken c r -> ~ Forall measurable l).
  { intros l1 c l2 s -> B F. apply Forall_app in F. destruct F as [_ F]. inversion F. now apply (broken_measurable c s B). }
  assert (BC : forall l1 l2 m1 c m2 r, l = l1 ++ l2 -> l = m1 ++ c :: m2 -> Forall measurable l1 -> conflict l1 -> ~ conflict m1 -> broken c r -> False).
  { intros l1 l2 m1 c m2 s E1 E2 F C N B. rewrite E1 in E2. apply app_cases in E2. destruct E2 as [(k & -> & E)|(k & -> & E)].
    - apply N. now apply conflict_app.
    - destruct k as [|d k]; [rewrite app_nil_r in C; contradiction|]. injection E as -> E. apply Forall_app in F. destruct F as [_ F]. inversion F.
      now apply (broken_measurable d s B). }
  destruct P as [(F & N & R)|[(-> & l1 & l2 & E & F & C)|(l1 & c & l2 & E & F & N & B)]];
    destruct P' as [(F' & N' & R')|[(-> & m1 & m2 & E' & F' & C')|(m1 & c' & m2 & E' & F' & N' & B')]].
  - unfold conflict in *. destruct R as [[-> G]|[[-> G]|(-> & G & L)]], R' as [[-> G']|[[-> G']|(-> & G' & L')]]; tauto.
  - now destruct (AB m1 m2).
  - now destruct (AC m1 c' m2 r').
  - now destruct (AB l1 l2).
  - reflexivity.
  - now destruct (BC l1 l2 m1 c' m2 r').
  - now destruct (AC l1 c l2 r).
  - now destruct (BC m1 m2 l1 c l2 r).
  - rewrite E in E'. apply app_cases in E'. destruct E' as [(k & -> & K)|(k & -> & K)].
    + destruct k as [|d k]; [injection K as <- _; now apply (broken_func c)|]. injection K as <- K. apply Forall_app in F'. destruct F' as [_ F']. inversion F'.
      now destruct (broken_measurable c r B).
    + destruct k as [|d k]; [injection K as <- _; now apply (broken_func c')|]. injection K as <- K. apply Forall_app in F. destruct F as [_ F]. inversion F.
      now destruct (broken_measurable c' r' B').
Qed.

(** ** Swapping *)
Definition flip (c : column) : column := mkColumn (k_type c) (k_right c) (k_left c).
Definition opposite (r : Z) : Z := if r =? 2 then 2 else - r.
Lemma flip_measured c P : measured (flip c) P <-> measured c (fun x y => P y x).
Proof. unfold measured. cbn. split; intros (x & y & A & B & C); exists y, x; auto. Qed.
Lemma flip_measurable c : measurable (flip c) <-> measurable c.
Proof.
  unfold measurable. rewrite flip_measured. unfold measured.
  split; intros (x & y & A & B & C); exists x, y; repeat split; try assumption; apply commensurable_sym in C; apply C.
Qed.
Lemma flip_gains c : gains (flip c) <-> loses c. Proof. unfold gains. now rewrite flip_measured. Qed.
Lemma flip_loses c : loses (flip c) <-> gains c. Proof. unfold loses. now rewrite flip_measured. Qed.
Lemma flip_flip c : flip (flip c) = c. Proof. now destruct c. Qed.
Lemma exists_map {A B} (f : A -> B) P l : Exists P (map f l) <-> Exists (fun x => P (f x)) l.
Proof. induction l as [|x l IH]; cbn; [split; intro K; inversion K|]. rewrite !Exists_cons. now rewrite IH. Qed.
Lemma exists_iff {A} (P Q : A -> Prop) l : (forall x, P x <-> Q x) -> Exists P l <-> Exists Q l.
Proof. intro H. rewrite !Exists_exists. split; intros (x & I & K); exists x; split; auto; now apply H. Qed.
Lemma forall_iff {A} (P Q : A -> Prop) l : (forall x, P x <-> Q x) -> Forall P l <-> Forall Q l.
Proof. intro H. rewrite !Forall_forall. split; intros K x I; apply H; auto. Qed.
Lemma flips_gains l : Exists gains (map flip l) <-> Exists loses l.
Proof. rewrite exists_map. apply exists_iff, flip_gains. Qed.
Lemma flips_loses l : Exists loses (map flip l) <-> Exists gains l.
Proof. rewrite exists_map. apply exists_iff, flip_loses. Qed.
Lemma flips_measurable l : Forall measurable (map flip l) <-> Forall measurable l.
Proof. rewrite Forall_map. apply forall_iff, flip_measurable. Qed.
Lemma flips_conflict l : conflict (map flip l) <-> conflict l.
Proof. unfold conflict. rewrite flips_gains, flips_loses. tauto. Qed.
Lemma pareto_flip l r : pareto l (Ok r) -> pareto (map flip l) (Ok (opposite r)).
Proof.
  intro P. remember (Ok r) as R eqn:ER. destruct P as [l M G L|l M L G|l M G L|l1 l2 M C|l1 c l2 M N U|l1 c l2 s M N F|l1 c l2 x s M N X F].
  - injection ER as <-. apply pareto_worse; rewrite ?flips_measurable, ?flips_gains, ?flips_loses; assumption.
  - injection ER as <-. apply pareto_better; rewrite ?flips_measurable, ?flips_gains, ?flips_loses; assumption.
  - injection ER as <-. apply pareto_equivalent; rewrite ?flips_measurable, ?flips_gains, ?flips_loses; assumption.
  - injection ER as <-. rewrite map_app. apply pareto_conflict; rewrite ?flips_measurable, ?flips_conflict; assumption.
  - injection ER as <-. rewrite map_app. cbn [map]. apply pareto_unlike; rewrite ?flips_measurable, ?flips_conflict; try assumption.
    apply flip_measured. destruct U as (x & y & A & B & C). exists x, y. repeat split; try assumption. intro K. apply C. now apply commensurable_sym.
  - subst s. destruct (k_left c); cbn in F; [contradiction|discriminate|discriminate].
  - subst s. destruct (k_right c); cbn in F; [contradiction|discriminate|discriminate].
Qed.

Section World.
  Variable heap : Z -> param.
  Variable jen : list Z -> Z.
  Variable feat : bool.
  Variable w : world.
  Notation cols := (columns heap jen w).
  Lemma columns_flip a b : same_space w a b -> cols b a = map flip (cols a b).
  Proof. intro S. unfold columns, objectives. rewrite map_map. unfold same_space in S. now rewrite S. Qed.
  Lemma compares_func a b r r' : compares heap jen feat w a b r -> compares heap jen feat w a b r' -> r = r'.
  Proof.
    intros C C'. inversion C; inversion C'; subst; try reflexivity; try contradiction; try (exfalso; tauto).
    eapply pareto_func; eassumption.
  Qed.
  Lemma same_features_sym a b : same_features w a b -> same_features w b a.
  Proof. apply same_binding_sym. Qed.
  Lemma compares_swap a b r : compares heap jen feat w a b (Ok r) -> compares heap jen feat w b a (Ok (opposite r)).
  Proof.
    intro C. inversion C; subst.
    - now apply compares_itself.
    - apply compares_features; auto. now symmetry. intro K. now apply same_features_sym in K.
    - apply compares_objectives; auto. { now symmetry. } { intro F. apply same_features_sym. auto. }
      rewrite columns_flip by assumption. now apply pareto_flip.
  Qed.

  (** ** One objective *)
  Definition leq (t : Z) (x y : value) : Prop := commensurable x y /\ ~ preferred t y x.
  Definition sane (v : value) : Prop := wf_value v /\ ~ nan v.
  Inductive ranked : value -> value -> value -> Prop :=
  | ranked_int i j k : ranked (VInt i) (VInt j) (VInt k)
  | ranked_float f g h a b c : fkey f = Some a -> fkey g = Some b -> fkey h = Some c -> ranked (VFloat f) (VFloat g) (VFloat h).
  Lemma sane_kind v : sane v -> (type_of v = TYPE_INT \/ type_of v = TYPE_FLOAT) -> (exists i, v = VInt i) \/ (exists f k, v = VFloat f /\ fkey f = Some k).
  Proof.
    intros [W N] T. destruct v as [|i|f| | | | |t i]; cbn in T; try (destruct T; discriminate).
    - left. eauto.
    - right. destruct (fkey f) as [k|] eqn:K; [eauto|]. destruct N. exists f. auto.
    - exfalso. cbn in W. unfold TYPE_INT, TYPE_FLOAT in T. lia.
  Qed.
  Lemma ranked_of x y z : sane x -> sane y -> sane z -> commensurable x y -> commensurable y z -> ranked x y z.
  Proof.
    intros Sx Sy Sz [E1 T1] [E2 T2]. apply (sane_kind x Sx) in T1 as X. apply (sane_kind y Sy) in T2 as Y.
    rewrite E2 in T2. apply (sane_kind z Sz) in T2 as Z0.
    destruct X as [(i & ->)|(f & a & -> & A)], Y as [(j & ->)|(g & b & -> & B)], Z0 as [(k & ->)|(h & c & -> & C)]; try discriminate; econstructor; eassumption.
  Qed.
  Lemma leq_trans t x y z : sane x -> sane y -> sane z -> leq t x y -> leq t y z -> leq t x z.
  Proof.
    intros Sx Sy Sz [C1 P1] [C2 P2]. pose proof (ranked_of x y z Sx Sy Sz C1 C2) as R. split. { destruct C1 as [E T], C2 as [E' _]. split; [congruence|exact T]. }
    destruct R as [i j k|f g h a b c A B C]; intros [[T L]|[T L]]; inversion L as [? ? H|? ? H]; clear L; subst.
    - apply P1. left. split; [exact T|]. constructor. assert (~ k < j) by (intro K; apply P2; left; split; [exact T|now constructor]). lia.
    - apply P1. right. split; [first [exact T|reflexivity]|]. constructor. assert (~ j < k) by (intro K; apply P2; right; split; [first [exact T|reflexivity]|now constructor]). lia.
    - rewrite A, C in H. cbn in H. apply P1. left. split; [exact T|]. constructor. rewrite A, B. cbn.
      assert (~ c < b) by (intro K; apply P2; left; split; [exact T|constructor; now rewrite C, B]). lia.
    - rewrite A, C in H. cbn in H. apply P1. right. split; [first [exact T|reflexivity]|]. constructor. rewrite A, B. cbn.
      assert (~ b < c) by (intro K; apply P2; right; split; [first [exact T|reflexivity]|constructor; now rewrite C, B]). lia.
  Qed.
  (** a strict step on either side *)
  Lemma leq_strict t x y z : sane x -> sane y -> sane z -> leq t x y -> leq t y z -> preferred t x y \/ preferred t y z -> preferred t x z.
  Proof.
    intros Sx Sy Sz [C1 P1] [C2 P2] D. pose proof (ranked_of x y z Sx Sy Sz C1 C2) as R.
    unfold preferred in *. destruct (Z.eq_dec t 1) as [T|T]; [right|left]; (split; [exact T|]).
    - destruct R as [i j k|f g h a b c A B C]; constructor.
      + assert (~ i < j) by (intro K; apply P1; right; split; [exact T|now constructor]). assert (~ j < k) by (intro K; apply P2; right; split; [exact T|now constructor]).
        destruct D as [[[? _]|[_ L]]|[[? _]|[_ L]]]; try contradiction; inversion L; lia.
      + assert (~ a < b) by (intro K; apply P1; right; split; [exact T|constructor; now rewrite A, B]).
        assert (~ b < c) by (intro K; apply P2; right; split; [exact T|constructor; now rewrite C, B]). rewrite A, C. cbn.
        destruct D as [[[? _]|[_ L]]|[[? _]|[_ L]]]; try contradiction; inversion L as [|? ? Q]; subst; rewrite ?A, ?B, ?C in Q; cbn in Q; lia.
    - destruct R as [i j k|f g h a b c A B C]; constructor.
      + assert (~ j < i) by (intro K; apply P1; left; split; [exact T|now constructor]). assert (~ k < j) by (intro K; apply P2; left; split; [exact T|now constructor]).
        destruct D as [[[_ L]|[? _]]|[[_ L]|[? _]]]; try contradiction; inversion L; lia.
      + assert (~ b < a) by (intro K; apply P1; left; split; [exact T|constructor; now rewrite A, B]).
        assert (~ c < b) by (intro K; apply P2; left; split; [exact T|constructor; now rewrite C, B]). rewrite A, C. cbn.
        destruct D as [[[_ L]|[? _]]|[[_ L]|[? _]]]; try contradiction; inversion L as [|? ? Q]; subst; rewrite ?A, ?B, ?C in Q; cbn in Q; lia.
  Qed.
  Lemma preferred_leq t x y : preferred t x y -> leq t x y.
  Proof.
    intro P. split; [|now apply preferred_asym]. destruct P as [[_ L]|[_ L]]; apply lower_commensurable in L; [exact L|now apply commensurable_sym].
  Qed.

  (** ** All objectives *)
  Notation value := (value_of heap jen w).
  Definition below (a b : Z) : Prop :=
    forall o, In o (objectives w a) -> exists x y, value a (fst o) = Ok x /\ value b (fst o) = Ok y /\ leq (snd o) (d_val x) (d_val y).
  Definition gap (a b : Z) : Prop :=
    exists o x y, In o (objectives w a) /\ value a (fst o) = Ok x /\ value b (fst o) = Ok y /\ preferred (snd o) (d_val x) (d_val y).
  Lemma below_iff a b : below a b <-> Forall measurable (cols a b) /\ ~ Exists loses (cols a b).
  Proof.
    unfold below, columns. rewrite Forall_map, exists_map, Forall_forall, Exists_exists. split.
    - intro H. split.
      + intros o I. destruct (H o I) as (x & y & A & B & C & _). exists x, y. auto.
      + intros (o & I & x & y & A & B & P). cbn in A, B, P. destruct (H o I) as (x' & y' & A' & B' & C & N). rewrite A in A'. rewrite B in B'. injection A' as <-. injection B' as <-. contradiction.
    - intros [M L] o I. destruct (M o I) as (x & y & A & B & C). cbn in A, B. exists x, y. repeat split; try assumption; try apply C.
      intro P. apply L. exists o. split; [exact I|]. exists x, y. auto.
  Qed.
  Lemma gap_iff a b : gap a b <-> Exists gains (cols a b).
  Proof.
    unfold gap, columns. rewrite exists_map, Exists_exists. split.
    - intros (o & x & y & I & A & B & P). exists o. split; [exact I|]. exists x, y. auto.
    - intros (o & I & x & y & A & B & P). exists o, x, y. auto.
  Qed.
  Lemma gap_below a b : same_space w a b -> gap a b -> ~ below b a.
  Proof.
    intros S (o & x & y & I & A & B & P) H. unfold objectives in I. rewrite S in I. destruct (H o I) as (y' & x' & B' & A' & _ & N).
    rewrite A in A'. rewrite B in B'. injection A' as <-. injection B' as <-. contradiction.
  Qed.
  Lemma dominates_iff a b : dominates heap jen feat w a b <-> (feat = true -> same_features w a b) /\ below a b /\ gap a b.
  Proof. unfold dominates. rewrite below_iff, gap_iff. tauto. Qed.
  Lemma tied_iff a b : same_space w a b -> tied heap jen feat w a b <-> a = b \/ ((feat = true -> same_features w a b) /\ below a b /\ below b a).
  Proof.
    intro S. unfold tied. rewrite !below_iff, (columns_flip a b S), flips_measurable, flips_loses. tauto.
  Qed.
  Lemma same_features_trans a b c : same_features w a b -> same_features w b c -> same_features w a c.
  Proof. unfold same_features, same_binding. intros [A B] [C D]. split; congruence. Qed.
  (** evaluations the order is good on *)
  Definition fine (s : Z) (e : Z) : Prop := ev_space (w_eval w e) = s /\ ok_result w e /\ assessed heap jen w e.
  Variable s : Z.
  Lemma fine_space a b : fine s a -> fine s b -> same_space w a b.
  Proof. intros (A & _) (B & _). unfold same_space. congruence. Qed.
  Lemma fine_value a b o : fine s a -> fine s b -> In o (objectives w a) -> exists d, value b (fst o) = Ok d /\ sane (d_val d).
  Proof.
    intros A B I. destruct B as (Sb & _ & Q). destruct A as (Sa & _). unfold assessed, objectives in *. rewrite Sa in I. rewrite Sb in Q.
    destruct (Q o I) as (d & V & W & N). exists d. split; [exact V|]. split; assumption.
  Qed.
  Lemma below_trans a b c : fine s a -> fine s b -> fine s c -> below a b -> below b c -> below a c.
  Proof.
    intros A B C H K o I. assert (I' : In o (objectives w b)). { unfold objectives in *. now rewrite <- (fine_space a b A B). }
    destruct (fine_value a a o A A I) as (x' & X & Sx). destruct (fine_value a b o A B I) as (y' & Y & Sy). destruct (fine_value a c o A C I) as (z' & Zc & Sz).
    destruct (H o I) as (x & y & X1 & Y1 & L1). destruct (K o I') as (y2 & z & Y2 & Z2 & L2).
    rewrite X in X1. rewrite Y in Y1, Y2. rewrite Zc in Z2. injection X1 as <-. injection Y1 as <-. injection Y2 as <-. injection Z2 as <-.
    exists x', z'. split; [exact X|]. split; [exact Zc|]. now apply (leq_trans _ _ (d_val y')).
  Qed.
  Lemma gap_trans a b c : fine s a -> fine s b -> fine s c -> below a b -> below b c -> gap a b \/ gap b c -> gap a c.
  Proof.
    intros A B C H K D.
    assert (O : exists o, In o (objectives w a) /\ exists x y z, value a (fst o) = Ok x /\ value b (fst o) = Ok y /\ value c (fst o) = Ok z /\
      (preferred (snd o) (d_val x) (d_val y) \/ preferred (snd o) (d_val y) (d_val z))).
    { destruct D as [(o & x & y & I & X & Y & P)|(o & y & z & I & Y & Zc & P)].
      - exists o. split; [exact I|]. destruct (fine_value a c o A C I) as (z & Zc & _). exists x, y, z. auto.
      - assert (I' : In o (objectives w a)). { unfold objectives in *. now rewrite (fine_space a b A B). } exists o. split; [exact I'|].
        destruct (fine_value a a o A A I') as (x & X & _). exists x, y, z. auto. }
    destruct O as (o & I & x & y & z & X & Y & Zc & P). assert (I' : In o (objectives w b)). { unfold objectives in *. now rewrite <- (fine_space a b A B). }
    destruct (H o I) as (x1 & y1 & X1 & Y1 & L1). destruct (K o I') as (y2 & z2 & Y2 & Z2 & L2).
    rewrite X in X1. rewrite Y in Y1, Y2. rewrite Zc in Z2. injection X1 as <-. injection Y1 as <-. injection Y2 as <-. injection Z2 as <-.
    exists o, x, z. split; [exact I|]. split; [exact X|]. split; [exact Zc|].
    destruct (fine_value a a o A A I) as (x1 & X1 & Sx). destruct (fine_value a b o A B I) as (y1 & Y1 & Sy). destruct (fine_value a c o A C I) as (z1 & Z1 & Sz).
    rewrite X in X1. rewrite Y in Y1. rewrite Zc in Z1. injection X1 as <-. injection Y1 as <-. injection Z1 as <-.
    now apply (leq_strict _ _ (d_val y)).
  Qed.
  Notation dom := (dominates heap jen feat w).
  Notation tie := (tied heap jen feat w).
  Lemma dom_trans a b c : fine s a -> fine s b -> fine s c -> dom a b -> dom b c -> dom a c.
  Proof.
    intros A B C. rewrite !dominates_iff. intros (F & L & G) (F' & L' & G'). split; [intro E; eapply same_features_trans; eauto|]. split.
    - now apply (below_trans a b c).
    - apply (gap_trans a b c); auto.
  Qed.
  Lemma tie_sym a b : fine s a -> fine s b -> tie a b -> tie b a.
  Proof.
    intros A B. pose proof (fine_space a b A B) as S. rewrite (tied_iff a b S), (tied_iff b a (eq_sym S)). intros [->|(F & L & G)]; [now left|].
    right. split; [intro E; apply same_features_sym; auto|]. auto.
  Qed.
  Lemma tie_trans a b c : fine s a -> fine s b -> fine s c -> tie a b -> tie b c -> tie a c.
  Proof.
    intros A B C. rewrite (tied_iff a b), (tied_iff b c), (tied_iff a c) by now apply fine_space.
    intros [->|(F & L & G)]; [auto|]. intros [<-|(F' & L' & G')]; [auto|]. right. split; [intro E; eapply same_features_trans; eauto|].
    split; [now apply (below_trans a b c)|now apply (below_trans c b a)].
  Qed.
  Lemma tie_dom a b c : fine s a -> fine s b -> fine s c -> tie a b -> dom b c -> dom a c.
  Proof.
    intros A B C. rewrite (tied_iff a b) by now apply fine_space. rewrite !dominates_iff. intros [->|(F & L & G)]; [auto|]. intros (F' & L' & G').
    split; [intro E; eapply same_features_trans; eauto|]. split; [now apply (below_trans a b c)|apply (gap_trans a b c); auto].
  Qed.
  Lemma dom_tie a b c : fine s a -> fine s b -> fine s c -> dom a b -> tie b c -> dom a c.
  Proof.
    intros A B C. rewrite (tied_iff b c) by now apply fine_space. rewrite !dominates_iff. intros (F & L & G) [<-|(F' & L' & G')]; [auto|].
    split; [intro E; eapply same_features_trans; eauto|]. split; [now apply (below_trans a b c)|apply (gap_trans a b c); auto].
  Qed.
  Lemma dom_not_tie a b : fine s a -> fine s b -> dom a b -> ~ tie b a.
  Proof.
    intros A B. rewrite (tied_iff b a) by now apply fine_space. rewrite dominates_iff. intros (F & L & G) [->|(_ & L' & _)].
    - destruct G as (o & x & y & I & X & Y & P). rewrite X in Y. injection Y as <-. now apply (preferred_asym _ _ _ P).
    - now apply (gap_below a b (fine_space a b A B)).
  Qed.
  Lemma dom_asym a b : fine s a -> fine s b -> dom a b -> ~ dom b a.
  Proof.
    intros A B D D'. pose proof (dom_trans a b a A B A D D') as X. apply (dom_not_tie a a A A X). now left.
  Qed.
  (** what a comparison of two such evaluations answers *)
  Lemma compares_fine a b r : fine s a -> fine s b -> compares heap jen feat w a b r ->
    (r = Ok (-1) /\ dom a b) \/ (r = Ok 1 /\ dom b a) \/ (r = Ok 0 /\ tie a b) \/ (r = Ok 2 /\ ~ dom a b /\ ~ dom b a /\ ~ tie a b).
  Proof.
    intros A B C. pose proof (fine_space a b A B) as S. inversion C as [E|N X|N Ra Rb _ F NF|r' N Ra Rb _ F P]; subst.
    - right. right. left. split; [reflexivity|now left].
    - destruct A as (_ & Ra & _), B as (_ & Rb & _). tauto.
    - right. right. right. split; [reflexivity|]. assert (NF' : ~ same_features w b a) by (intro K; apply NF; now apply same_features_sym).
      split; [intros [K _]; auto|]. split; [intros [K _]; auto|]. intros [K|[K _]]; auto.
    - assert (F' : feat = true -> same_features w b a) by (intro K; apply same_features_sym; auto).
      unfold dominates, tied. rewrite (columns_flip a b S), flips_measurable, flips_gains, flips_loses.
      apply pareto_cases in P. destruct P as [(M & NC & R)|[(-> & l1 & l2 & E & M & K)|(l1 & c & l2 & E & M & NC & K)]].
      + unfold conflict in NC. destruct R as [[-> G]|[[-> G]|(-> & G & L)]]; tauto.
      + right. right. right. split; [reflexivity|]. rewrite E. assert (conflict (l1 ++ l2)) as [G L] by now apply conflict_app. tauto.
      + right. right. right. assert (NM : ~ Forall measurable (cols a b)).
        { rewrite E. intro X. apply Forall_app in X. destruct X as [_ X]. inversion X. now apply (broken_measurable c r K). }
        split; [|tauto]. assert (IC : In c (cols a b)) by (rewrite E; apply in_or_app; right; now left).
        unfold columns in IC. apply in_map_iff in IC. destruct IC as (o & <- & I). destruct (fine_value a a o A A I) as (x & X & _). destruct (fine_value a b o A B I) as (y & Y & _).
        destruct K as [|r K|x' r K K']; [reflexivity| |]; cbn in K; rewrite ?X in *; cbn in K; try contradiction. cbn in K'. rewrite Y in K'. contradiction.
  Qed.
End World.
