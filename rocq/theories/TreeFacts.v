(** The statements on trees, put together. *)
From Coq Require Import ZArith List Bool Lia ZifyBool Arith.
From Verif Require Import Base Datum CodecModel FloatModel FloatSpec FloatProofs FloatRound IntervalSpec DistModel DistSpec DistRoulette DistMix CmpSpec TreeModel TreeSpec TreeHeap TreeProofs TreeOps TreeSteps TreeRep TreeNav.
Import ListNotations.
Open Scope Z_scope.

(** a position that designates a node neither breaks off nor strays *)
Lemma des_prefix h t l1 d1 : designates h t l1 d1 -> forall l2 d, designates h t (l1 ++ l2) d -> designates h d1 l2 d.
Proof.
  induction 1 as [t A|t w j c l d1 Ew Nw D IH]; cbn [app]; intros l2 d D2; [exact D2|].
  inversion D2 as [|t2 w2 j2 c2 l3 d3 Ew2 N2 D3]; subst. apply IH. congruence.
Qed.
Lemma des_not_break h t l d : designates h t l d -> ~ breaks h t l.
Proof.
  intros D (l1 & l2 & -> & l' & i & d' & v & -> & D' & Ev & N). rewrite <- app_assoc in D. pose proof (des_prefix _ _ _ _ D' _ _ D) as X.
  inversion X as [|t2 w2 j2 c2 l3 d3 Ew2 N2 D3]; subst. congruence.
Qed.
Lemma des_not_stray h t l d : forest h -> designates h t l d -> ~ strays h t l.
Proof.
  intros F D (l1 & i & l2 & d' & v & -> & D' & Ev & N). pose proof (des_prefix _ _ _ _ D' _ _ D) as X. destruct (F d' v Ev) as (LC & _).
  inversion X as [|t2 w2 j2 c2 l3 d3 Ew2 N2 D3]; subst. assert (v = w2) by congruence. subst w2. assert (i < length (v_children v))%nat by (apply nth_error_Some; congruence). lia.
Qed.
Lemma operations h o : reached h -> allowed h o -> outcome h o (step h o).
Proof. intros R A. exact (proj1 (step_ok h o (reached_inv _ R) A)). Qed.
Lemma consistent h t : reached h -> alive h t -> exists T n, represents h t T /\ node_at h t = Some n /\ sampled_as n T.
Proof.
  intros R A. pose proof (reached_inv _ R) as IV. apply alive_node in A as (n & E). destruct (rep_exists h (proj1 IV) t n E) as [T RT].
  exists T, n. split; [exact RT|]. split; [exact E|]. now apply (rep_sampled h IV t T RT).
Qed.
Lemma tree_selects h t T : reached h -> represents h t T ->
  exists n, node_at h t = Some n /\ sampled_as n T /\
  (keq (fkey (weight_of T)) (fkey 0) -> forall us, tree_samples h t us = Err ERR_INVALID_DISTRIBUTION) /\
  (finite (weight_of T) -> klt (fkey 0) (fkey (weight_of T)) -> finite (fdiv ONE (weight_of T)) ->
   forall us, Forall unit_draw us ->
   exists is, tree_samples h t us = Ok (map Z.of_nat is) /\
     Forall2 (fun u i => exists w, nth_error (choices T) i = Some w /\ in_area (n_areas n) i u /\
       ((S i < length (choices T))%nat \/ (scaled (weight_of T) <= 2 ^ 2096 /\ klt (fkey u) (fkey 0x3fefffffffffffff)) -> klt (fkey 0) (fkey w))) us is).
Proof.
  intros R RT. pose proof (reached_inv _ R) as IV. inversion RT as [id v kids Ev K]; subst. apply seen_node in Ev as (n & E & EV). subst v.
  pose proof (rep_sampled h IV t _ RT n E) as SA. exists n. split; [exact E|]. split; [exact SA|]. destruct SA as (_ & SW & _). unfold same_num in SW.
  split.
  - intros Z us. unfold tree_samples. rewrite (read_node _ _ _ E). cbn [bind]. rewrite <- SW in Z. apply feq_key in Z. rewrite Z. reflexivity.
  - intros FT PT FI us U. assert (NZ : feq (n_sum n) 0 = false).
    { destruct (feq (n_sum n) 0) eqn:Q; [|reflexivity]. apply feq_key in Q. rewrite SW in Q. destruct (fkey (weight_of _)) as [k|]; cbn in *; [|contradiction]. change (fkey 0) with (Some 0) in *. lia. }
    unfold tree_samples. rewrite (read_node _ _ _ E). cbn [bind]. rewrite NZ. cbn [refute bind].
    induction U as [|u us U1 U2 (is & IH & F)]; [exists []; split; [reflexivity|constructor]|].
    destruct (sample_selects h t n _ u IV E RT FT PT FI U1) as (i & w & DS & NC & IA & P). cbn [tree_searches]. rewrite DS. cbn [bind]. rewrite IH. cbn [bind].
    exists (i :: is). split; [reflexivity|]. constructor; [|exact F]. exists w. auto.
Qed.
Lemma accessors h t v : reached h -> seen h t = Some v ->
  get_value h t = Ok (v_value v) /\ get_arity h t = Ok (v_arity v) /\ get_weight h t = Ok (v_weight v) /\ get_bias h t = Ok (v_bias v) /\ get_parent h t = Ok (v_parent v) /\
  (forall i, ((v_arity v <= i)%nat /\ get_child h t i = Err ERR_OUT_OF_BOUNDS) \/ exists c, nth_error (v_children v) i = Some c /\ get_child h t i = Ok c) /\
  (forall array count, answered None (v_children v) array count (get_children h t array count)).
Proof.
  intros R E. pose proof (reached_inv _ R) as (F & SH & _). apply seen_node in E as (n & E & ->). pose proof (SH t n E) as (LC & _).
  unfold get_value, get_arity, get_weight, get_bias, get_parent. rewrite (read_node _ _ _ E). cbn [bind].
  split; [reflexivity|]. split; [reflexivity|]. split; [reflexivity|]. split; [reflexivity|]. split; [reflexivity|]. split.
  - intro i. unfold get_child. rewrite (read_node _ _ _ E). cbn [bind view_of v_arity v_children]. destruct (Nat.leb_spec (n_arity n) i) as [I|I]; cbn [refute bind]; [left; auto|right].
    exists (nth i (n_children n) None). split; [|reflexivity]. apply nth_error_nth'. lia.
  - intros array count. unfold get_children, answered. rewrite (read_node _ _ _ E). cbn [bind view_of v_children]. destruct array as [size|].
    + cbn [is_some negb andb refute bind]. unfold fill. destruct (Nat.ltb_spec size (length (n_children n))) as [Q|Q]; cbn [refute bind]; [left; auto|right]. rewrite <- LC. auto.
    + destruct count; cbn; [now rewrite LC|reflexivity].
Qed.
Lemma positions h t : reached h -> alive h t -> exists root l vs, is_root h root /\ designates h root l t /\ values_along h root l vs /\
  (forall root' l', is_root h root' -> designates h root' l' t -> root' = root /\ l' = l) /\
  (forall array count, answered 0%nat l array count (get_position h t array count)) /\
  (forall array count, answered ccs_none vs array count (get_values h t array count)).
Proof.
  intros R A. pose proof (reached_inv _ R) as (F & SH & _). apply alive_node in A as (n & E). destruct (seen_rooted _ _ _ F E) as [d RT].
  destruct (root_exists h F t d RT) as (root & l & Q & D). destruct (along_exists h root l t D) as (vs & V). exists root, l, vs.
  split; [exact Q|]. split; [exact D|]. split; [exact V|]. split; [|split].
  - intros root' l' Q' D'.
    assert (LL : length l' = length l).
    { pose proof (des_rooted h F _ _ _ _ D (root_rooted _ _ Q)) as R1. pose proof (des_rooted h F _ _ _ _ D' (root_rooted _ _ Q')) as R2.
      cbn in R1, R2. exact (rooted_fun _ _ _ _ R2 R1). }
    pose proof (climb_index h F root l t [] D) as C1. pose proof (climb_index h F root' l' t [] D') as C2. rewrite LL, C1 in C2. injection C2 as C2. rewrite !app_nil_r in C2. subst l'. split; [|reflexivity].
    clear -D D' F Q Q'. revert t D D'. induction l as [|i l IH] using rev_ind; intros t D D'.
    + inversion D; inversion D'; subst. congruence.
    + destruct (des_snoc _ _ _ _ _ D) as (p & v & P1 & P2 & P3). destruct (des_snoc _ _ _ _ _ D') as (p' & v' & P1' & P2' & P3').
      destruct (F p v P2) as (_ & C & _). destruct (C i t P3) as (u & Eu & Pu). destruct (F p' v' P2') as (_ & C' & _). destruct (C' i t P3') as (u' & Eu' & Pu').
      assert (p' = p) by congruence. subst p'. exact (IH p P1 P1').
  - intros array count. now apply (get_position_ok h F root).
  - intros array count. now apply (get_values_ok h F root l).
Qed.
Lemma node_found h t l : reached h -> alive h t ->
  (exists d, get_node_at_position h t l = Ok d /\ designates h t l d) \/
  (get_node_at_position h t l = Err ERR_INVALID_TREE /\ breaks h t l) \/ (get_node_at_position h t l = Err ERR_OUT_OF_BOUNDS /\ strays h t l).
Proof.
  intros R A. pose proof (reached_inv _ R) as (F & SH & _). apply alive_node in A as (n & E). unfold get_node_at_position. rewrite (read_node _ _ _ E). cbn [bind]. now apply (node_loop_ok h F SH l t n).
Qed.
Lemma values_found h t l size : reached h -> alive h t ->
  ((size <= length l)%nat /\ get_values_at_position h t l size = Err ERR_INVALID_VALUE) \/
  ((length l < size)%nat /\
   ((exists vs, values_along h t l vs /\ get_values_at_position h t l size = Ok (vs ++ repeat ccs_none (size - length vs))) \/
    (breaks h t l /\ get_values_at_position h t l size = Err ERR_INVALID_TREE) \/
    (strays h t l /\ get_values_at_position h t l size = Err ERR_OUT_OF_BOUNDS))).
Proof. intros R A. pose proof (reached_inv _ R) as (F & SH & _). apply alive_node in A as (n & E). now apply (values_at_ok h F SH t n). Qed.
Lemma position_extends h t l d p q : reached h -> designates h t l d -> alive h t ->
  get_position h t (Some (length p)) true = Ok (Some p, length p) ->
  get_position h d (Some (length q)) true = Ok (Some q, length q) -> q = p ++ l.
Proof.
  intros R D A P Q. destruct (positions h t R A) as (root & l1 & _ & Q1 & D1 & _ & _ & A1 & _). pose proof (reached_inv _ R) as (F & SH & _).
  pose proof (get_position_ok h F root (l1 ++ l) d (Some (length q)) true Q1 (des_app _ _ _ _ _ _ D1 D)) as A2. specialize (A1 (Some (length p)) true).
  cbn in A1, A2. rewrite P in A1. rewrite Q in A2. destruct A1 as [[_ X]|[_ X]]; [discriminate|]. destruct A2 as [[_ Y]|[_ Y]]; [discriminate|].
  injection X as X1 X2. injection Y as Y1 Y2. rewrite X2, Nat.sub_diag, app_nil_r in X1. rewrite Y2, Nat.sub_diag, app_nil_r in Y1. congruence.
Qed.
Lemma valid_positions h t l : reached h -> alive h t ->
  exists b, position_is_valid h t l = Ok b /\ (b = true <-> (exists d, get_node_at_position h t l = Ok d) \/ dangling h t l).
Proof.
  intros R A. pose proof (reached_inv _ R) as (F & SH & _). pose proof A as A'. apply alive_node in A as (n & E). unfold position_is_valid. rewrite (read_node _ _ _ E). cbn [bind].
  destruct (valid_ok h F SH l t n E) as (b & V & B). exists b. split; [exact V|]. rewrite B. split; (intros [(d & D)|D]; [left|now right]).
  - destruct (node_found h t l R A') as [(d' & N & _)|[[_ X]|[_ X]]]; [eauto|now apply des_not_break in D|now apply (des_not_stray _ _ _ _ F) in D].
  - destruct (node_found h t l R A') as [(d' & N & D')|[[X _]|[X _]]]; [eauto|congruence|congruence].
Qed.
Lemma walks h t fuel us l rest : reached h -> alive h t -> walk fuel h t us = Ok (l, rest) ->
  position_is_valid h t l = Ok true /\ ((exists d, get_node_at_position h t l = Ok d) \/ dangling h t l) /\ exists used, us = used ++ rest.
Proof.
  intros R A W. pose proof (reached_inv _ R) as (F & SH & _). pose proof A as A'. apply alive_node in A as (n & E). destruct (walk_valid h F SH fuel t n us l rest E W) as [V U].
  assert (G : (exists d, get_node_at_position h t l = Ok d) \/ dangling h t l).
  { destruct V as [(d & D)|V]; [left|now right].
    destruct (node_found h t l R A') as [(d' & N & _)|[[_ X]|[_ X]]]; [eauto|now apply des_not_break in D|now apply (des_not_stray _ _ _ _ F) in D]. }
  split; [|auto]. destruct (valid_positions h t l R A') as (b & V' & B). rewrite V'. f_equal. now apply B.
Qed.
Lemma walk_ends h t T us : reached h -> represents h t T -> samplable T -> (length h <= length us)%nat -> Forall unit_draw us ->
  exists l rest, walk (length h) h t us = Ok (l, rest).
Proof.
  intros R RT ST LU U. pose proof (reached_inv _ R) as IV. inversion RT as [id v kids Ev K]; subst. pose proof Ev as Ev'. apply seen_node in Ev as (n & E & EV).
  destruct (seen_rooted _ _ _ (proj1 IV) E) as [d RD]. apply (walk_total h IV (length h) t n _ d us E RT ST RD); [lia|exact LU|exact U].
Qed.
Lemma cycles h t c i : reached h -> alive h t -> alive h c -> under h c t ->
  (exists v, seen h t = Some v /\ (v_arity v <= i)%nat /\ set_child h t i c = Err ERR_OUT_OF_BOUNDS) \/
  (exists v d, seen h t = Some v /\ nth_error (v_children v) i = Some (Some d) /\ set_child h t i c = Err ERR_INVALID_VALUE) \/
  (exists v u p, seen h t = Some v /\ nth_error (v_children v) i = Some None /\ seen h c = Some u /\ v_parent u = Some p /\ set_child h t i c = Err ERR_INVALID_TREE) \/
  (exists v T, seen h t = Some v /\ nth_error (v_children v) i = Some None /\ is_root h c /\ represents h c T /\
    ((~ keq (fkey (fmul (weight_of T) (t_bias T))) (fkey ONE) /\ set_child h t i c = UB UBDiverge) \/
     (keq (fkey (fmul (weight_of T) (t_bias T))) (fkey ONE) /\ exists h', set_child h t i c = Ok h' /\ ~ forest h'))).
Proof.
  intros R At Ac UN. pose proof (reached_inv _ R) as IV. pose proof IV as (F & SH & _). apply alive_node in At as (n & Et), Ac as (m & Ec).
  destruct (SH t n Et) as (LC & _). destruct (SH c m Ec) as (_ & _ & PIm & _).
  destruct (Nat.leb_spec (n_arity n) i) as [I|I].
  { left. exists (view_of n). split; [now apply seen_of|]. split; [exact I|]. unfold set_child. rewrite (read_node _ _ _ Et), (read_node _ _ _ Ec). cbn [bind]. destruct (Nat.leb_spec (n_arity n) i); [reflexivity|lia]. }
  right. pose proof (child_error h SH n t i Et I) as C.
  destruct (nth i (n_children n) None) as [d|] eqn:ND.
  { left. exists (view_of n), d. split; [now apply seen_of|]. split; [exact C|]. unfold set_child. rewrite (read_node _ _ _ Et), (read_node _ _ _ Ec). cbn [bind]. destruct (Nat.leb_spec (n_arity n) i); [lia|]. cbn [refute bind]. now rewrite ND. }
  right. destruct (n_parent m) as [p|] eqn:PM.
  { left. exists (view_of n), (view_of m), (p, n_index m). split; [now apply seen_of|]. split; [exact C|]. split; [now apply seen_of|]. split; [now apply parent_view|].
    unfold set_child. rewrite (read_node _ _ _ Et), (read_node _ _ _ Ec). cbn [bind]. destruct (Nat.leb_spec (n_arity n) i); [lia|]. cbn [refute bind]. rewrite ND, PM. reflexivity. }
  right. destruct (rep_exists h F c m Ec) as [T RT]. exists (view_of n), T. split; [now apply seen_of|]. split; [exact C|]. split; [exists (view_of m); split; [now apply seen_of|now apply parent_view_none]|]. split; [exact RT|].
  destruct (rep_sampled h IV c T RT m Ec) as (_ & SW & _). inversion RT as [id v kids Ev K]; subst. rewrite (seen_of _ _ _ Ec) in Ev. injection Ev as <-.
  pose proof (same_mul _ _ (n_bias m) (n_bias m) SW (same_refl _)) as SM. unfold same_num in SM. cbn [t_bias view_of v_bias]. cbn [view_of v_value v_weight v_bias v_ud] in SM |- *. rewrite <- SM.
  exact (set_child_cycle h t n c m i IV Et Ec UN PM C).
Qed.
Lemma always_forest h : reached h -> forest h.
Proof. intro R. apply (reached_inv _ R). Qed.
