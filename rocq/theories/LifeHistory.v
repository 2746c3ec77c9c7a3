(** Histories: what every call of a correct application does, and what follows. *)
From Coq Require Import ZArith List Bool Lia.
From Verif Require Import Base LifeModel LifeSpec LifeEffects LifeCounts LifeProofs LifeOps LifeCalls LifeCalls2
  LifeCalls3 LifeCalls4 LifeCalls5 LifeCalls6 LifeCalls7 LifeSteps LifeAccept.
Import ListNotations.
Open Scope Z_scope.

Lemma start_ok : forall mem, ok (start mem) (fun _ => 0).
Proof.
  intros mem. split.
  - intros x. split; [lia|]. unfold look, held. cbn. destruct x; reflexivity.
  - intros y o [L _]. unfold look in L. cbn in L. destruct y; discriminate.
Qed.

Lemma mislaid_nonneg : forall o given s s1 x, 0 <= mislaid o given s s1 x.
Proof.
  intros o given s s1 x. destruct o; cbn [mislaid]; try lia.
  - destruct x0; [|lia]. destruct v; [lia|]. destruct (refused_values s h l); [apply is_nonneg|lia].
  - destruct (look s1 x); [|lia]. destruct (_ && _); lia.
Qed.

Lemma account_nonneg : forall s app o code given, allowed s app o -> (forall x, 0 <= app x) ->
  forall x, 0 <= account o code given app x.
Proof.
  intros s app o code given Al Ap x. unfold account. pose proof (times_nonneg x given). specialize (Ap x).
  destruct o; try lia.
  - destruct (code =? CCS_RESULT_SUCCESS); [pose proof (is_some_nonneg x x0)|]; lia.
  - cbn in Al. destruct x0 as [h|]; cbn [is_some]; [|lia]. cbn in Al.
    destruct (Nat.eq_dec x h) as [->|N]; [rewrite is_same|rewrite is_other by auto]; lia.
Qed.

Lemma step_done : forall s app e o, ok s e -> (forall h, app h <= e h) -> allowed s app o ->
  match step o s with
  | Done (code, given) s1 => done_ s e o (code, given) s1
  | Fail _ _ => False
  | Undef w => w = UBOverflow
  end.
Proof.
  intros s app e o O H Al. pose proof (call_ok s e O app H o Al) as W. unfold wp in W. unfold step.
  destruct (call o s) as [[code given] s1|c s1|w]; auto.
Qed.

Lemma history_ok : forall s app lost, history s app lost ->
  ok s (fun x => app x + lost x) /\ (forall x, 0 <= app x) /\ (forall x, 0 <= lost x).
Proof.
  induction 1 as [mem|s app lost o code given s1 H (O & A & L) Al S].
  - split; [|split; intros; lia]. eapply ok_ext; [|apply start_ok]. intros; cbn; lia.
  - pose proof (step_done s app (fun x => app x + lost x) o O ltac:(intros h; specialize (L h); cbv beta; lia) Al) as W.
    rewrite S in W. destruct W as (_ & O1). split; [|split].
    + eapply ok_ext; [|exact O1]. intros x. unfold outside. cbn [fst snd]. unfold account. lia.
    + eapply account_nonneg; eauto.
    + intros x. pose proof (mislaid_nonneg o given s s1 x). specialize (L x). lia.
Qed.

Section In.
Variables (s : st) (app lost : handle -> Z).
Hypothesis H : history s app lost.
Definition ext (x : handle) : Z := app x + lost x.

Lemma in_ok : ok s ext.
Proof. apply (history_ok _ _ _ H). Qed.
Lemma in_app : forall h, app h <= ext h.
Proof. intros h. unfold ext. pose proof (proj2 (proj2 (history_ok _ _ _ H)) h). lia. Qed.

Lemma in_outcome : forall o code given s1, allowed s app o -> step o s = Done (code, given) s1 ->
  outcome s ext o code given s1.
Proof.
  intros o code given s1 Al S. pose proof (step_done s app ext o in_ok in_app Al) as W. rewrite S in W. apply W.
Qed.

Lemma in_accepts : forall o code given s1, allowed s app o -> step o s = Done (code, given) s1 ->
  (code = CCS_RESULT_SUCCESS -> accepted s ext o) /\
  (s_mem s = [] -> accepted s ext o -> code = CCS_RESULT_SUCCESS).
Proof.
  intros o code given s1 Al S. pose proof (call_accepts s ext in_ok app in_app o Al) as J.
  unfold jd, step in *. destruct (call o s) as [r s2|c s2|w]; [| |discriminate].
  - injection S as -> <-. destruct J as (A & B). cbn [fst] in *. split; auto. intros M K.
    destruct (Z.eq_dec code CCS_RESULT_SUCCESS) as [|N]; auto. now destruct (B N).
  - injection S as <- _ <-. destruct J as (N & P). split; [tauto|]. intros M K. now destruct P.
Qed.
End In.

(** ** Reachability *)

Lemma reach_trans : forall s x y z, reaches s x y -> reaches s y z -> reaches s x z.
Proof. induction 1; auto. intros. eapply reach_step; eauto. Qed.

Lemma reached_alive : forall s e y x, ok s e -> 0 < e y -> reaches s y x -> alive s x.
Proof.
  intros s e y x O P R. assert (A : alive s y) by (eapply ok_alive; eauto). clear P.
  induction R as [|y z x Hz R IH]; auto. apply IH. clear IH R.
  eapply counted_alive; [apply O|]. pose proof (holder_held _ _ _ Hz). pose proof (counted_nonneg _ _ z (proj1 O)). lia.
Qed.

(** Going up from an object, either a reference from outside is found or some
    object is met twice. *)
Definition chain (s : st) (l : list handle) : Prop :=
  forall l1 a b l2, l = l1 ++ a :: b :: l2 -> holder s b a.

Lemma chain_cons : forall s a b l, holder s b a -> chain s (b :: l) -> chain s (a :: b :: l).
Proof.
  intros s a b l Hb C l1 x y l2 E. destruct l1 as [|z l1]; cbn in E; injection E as -> E.
  - now subst.
  - eapply C; eauto.
Qed.
Lemma chain_reaches : forall s l a b, chain s (a :: l) -> In b (a :: l) -> reaches s b a.
Proof.
  induction l as [|c l IH]; intros a b C I.
  - destruct I as [<-|[]]. constructor.
  - destruct I as [<-|I]; [constructor|]. assert (C' : chain s (c :: l)).
    { intros l1 x y l2 E. apply (C (a :: l1) x y l2). now rewrite E. }
    eapply reach_trans; [eapply IH; eauto|]. eapply reach_step; [|constructor]. apply (C [] a c l). reflexivity.
Qed.


Lemma climb : forall s e, ok s e -> forall n x, alive s x ->
  (exists y, reaches s y x /\ 0 < e y) \/
  exists l, length l = n /\ chain s (x :: l) /\ Forall (alive s) (x :: l).
Proof.
  intros s e O. induction n as [|n IH]; intros x A.
  - right. exists []. split; auto. split; [|constructor; auto]. intros l1 a b l2 E.
    destruct l1 as [|? [|? ?]]; discriminate.
  - destruct A as (o & L). pose proof (counted_live _ _ _ _ (proj1 O) L) as E.
    pose proof (held_nonneg s x). pose proof (counted_nonneg _ _ x (proj1 O)). destruct L as [L P].
    destruct (Z.eq_dec (e x) 0) as [Z|Z]; [|left; exists x; split; [constructor|lia]].
    destruct (held_holder s x ltac:(lia)) as (y & Hy).
    assert (Ay : alive s y) by (destruct Hy as (oy & Ly & _); now exists oy).
    destruct (IH y Ay) as [(z & R & Pz)|(l & Ln & C & F)].
    + left. exists z. split; auto. eapply reach_trans; eauto. eapply reach_step; [exact Hy|constructor].
    + right. exists (y :: l). split; [cbn; lia|]. split; [now apply chain_cons|]. constructor; auto. exists o. split; auto.
Qed.

Lemma dup_split : forall A (dec : forall a b : A, {a = b} + {a <> b}) (l : list A), ~ NoDup l ->
  exists l1 a l2 l3, l = l1 ++ a :: l2 ++ a :: l3.
Proof.
  intros A dec. induction l as [|a l IH]; intros N; [destruct N; constructor|].
  destruct (in_dec dec a l) as [I|I].
  - apply in_split in I as (l2 & l3 & ->). exists [], a, l2, l3. reflexivity.
  - destruct IH as (l1 & b & l2 & l3 & ->). { intros Nd. apply N. now constructor. }
    exists (a :: l1), b, l2, l3. reflexivity.
Qed.

Lemma kept_by : forall s e x, ok s e -> alive s x ->
  exists y, reaches s y x /\ (0 < e y \/ exists z, holder s y z /\ reaches s z y).
Proof.
  intros s e x O A. destruct (climb s e O (size s) x A) as [(y & R & P)|(l & Ln & C & F)].
  - exists y. auto.
  - destruct (dup_split handle Nat.eq_dec (x :: l)) as (l1 & a & l2 & l3 & E).
    { intros N. pose proof (NoDup_incl_length N (l' := seq 0 (size s))) as K. rewrite seq_length in K. cbn [length] in K.
      enough (S (length l) <= size s)%nat by lia. apply K. intros h I. rewrite Forall_forall in F.
      destruct (F h I) as (o & L & _). apply look_lt in L. apply in_seq. lia. }
    exists a. split.
    { eapply chain_reaches; [exact C|]. rewrite E. apply in_or_app. right. now left. }
    right.
    (* the element just before the second occurrence is referenced by it *)
    assert (Ca : chain s (a :: l2 ++ a :: l3)).
    { intros k1 p q k2 E'. apply (C (l1 ++ k1) p q k2). rewrite E, <- app_assoc. f_equal. exact E'. }
    assert (X : exists k m, a :: l2 ++ a :: l3 = k ++ m :: a :: l3 /\ In m (a :: l2)).
    { destruct (exists_last (l := a :: l2) ltac:(discriminate)) as (k & m & Ek).
      exists k, m. split; [|rewrite Ek; apply in_or_app; right; now left].
      change (a :: l2 ++ a :: l3) with ((a :: l2) ++ a :: l3). rewrite Ek, <- app_assoc. reflexivity. }
    destruct X as (k & m & Ek & Im). exists m. split; [apply (Ca k m a l3 Ek)|].
    eapply chain_reaches; [exact Ca|]. destruct Im as [->|Im]; [now left|]. right. apply in_or_app. now left.
Qed.

(** ** The life of each object *)

Definition plain_op (o : op) : Prop := match o with OCallback _ _ _ => False | _ => True end.

Lemma after_refl : forall s, after s None s.
Proof. intros s. apply kept_after; [apply kept_refl|]. intros h o Ge L. rewrite look_big in L by auto. discriminate. Qed.
Lemma after_kept : forall s s1, kept s s1 -> after s None s1.
Proof. intros s s1 K. apply kept_after; auto. apply K. Qed.

Lemma registers_plain : forall o code h, plain_op o -> registers o code h = [].
Proof. now destruct o. Qed.

Lemma after_destiny : forall s c s1 o code, after s c s1 -> (forall h, registers o code h = []) -> destiny s o code s1.
Proof.
  intros s c s1 o code A Po. destruct (a_log _ _ _ A) as (ev & E & Lv & Dd & Nw). split; [apply A|]. exists ev. split; auto. split; [|split].
  - intros h x L. destruct (Lv h x L) as [(Ab & r & P & Lk)|]; [left|now right]. split; auto. eexists. split; [split; [exact Lk|exact P]|].
    cbn. split; auto. rewrite Po, app_nil_r. reflexivity.
  - exact Dd.
  - exact Nw.
Qed.

Lemma releases_after : forall s e s1, releases s e s1 -> after s None s1.
Proof.
  intros s e s1 (Sz & ev & E & Lv & Dead & _). constructor; [lia|]. exists ev. split; auto. split; [|split].
  - intros h o L. destruct (Lv h o L) as [(_ & D & A)|(_ & A & r & P & Lk)]; [right|left]; split; auto. exists r. auto.
  - intros h Lt N. apply Dead; auto.
  - intros h Ge. assert (N : ~ alive s h) by (intros (o & L & _); apply look_lt in L; lia).
    destruct (Dead h N) as (Lk & A). rewrite Lk, look_big by auto. rewrite A. destruct (Nat.ltb_spec h (size s1)); auto. lia.
Qed.

Lemma only_ref_after : forall s h x r s1, live s h x -> 0 < r -> only s h (with_ref x r) s1 -> after s None s1.
Proof.
  intros s h x r s1 L P (Sz & Lg & Lk). constructor; [lia|]. exists []. rewrite app_nil_r. split; auto. split; [|split].
  - intros y oy Ly. left. split; auto. rewrite Lk. destruct (Nat.eq_dec y h) as [->|N].
    + assert (oy = x) by (eapply live_fun; eauto). subst. exists r. auto.
    + destruct Ly as [Ly Py]. exists (o_ref oy). split; auto. rewrite Ly. now destruct oy.
  - intros y Lt N. rewrite Lk. destruct (Nat.eq_dec y h) as [->|]; [|auto]. exfalso. apply N. now exists x.
  - intros y Ge. rewrite Lk. destruct (Nat.eq_dec y h) as [->|].
    + destruct L as [L _]. apply look_lt in L. lia.
    + rewrite look_big by auto. rewrite Sz. destruct (Nat.ltb_spec y (size s)); auto. lia.
Qed.

Lemma outcome_destiny : forall s e o code given s1, outcome s e o code given s1 -> destiny s o code s1.
Proof.
  intros s e o code given s1 Oc.
  assert (Un : undisturbed s s1 -> (forall h, registers o code h = []) -> destiny s o code s1).
  { intros (K & _) R. eapply after_destiny; [apply after_kept; exact K|exact R]. }
  assert (Rl : forall e', releases s e' s1 -> plain_op o -> destiny s o code s1).
  { intros e' R Po. eapply after_destiny; [eapply releases_after; exact R|intros; now apply registers_plain]. }
  assert (Af : forall c, after s c s1 -> plain_op o -> destiny s o code s1).
  { intros c A Po. eapply after_destiny; [exact A|intros; now apply registers_plain]. }
  assert (Kp : kept s s1 -> plain_op o -> destiny s o code s1).
  { intros K. apply (Af None). now apply after_kept. }
  assert (Sm : s1 = s -> plain_op o -> destiny s o code s1).
  { intros ->. apply (Af None). apply after_refl. }
  assert (Xx : forall (P : handle -> Prop), (exists h, given = [h] /\ P h /\ kept s s1) -> plain_op o -> destiny s o code s1).
  { intros P (h & _ & _ & K). auto. }
  destruct Oc as [(-> & S)|(N & F)].
  - destruct o; cbn [success] in S; try (destruct S as (h0 & _ & _ & K); apply Kp; [exact K|exact Logic.I]).
    + destruct x as [h|]; [|destruct S as (h & _ & [] & _)]. destruct S as (_ & x & L & O).
      apply (Af None); [|exact Logic.I]. eapply only_ref_after; [exact L| |exact O]. destruct L. lia.
    + destruct x as [h|]; [|destruct S as (h & _ & [] & _)]. destruct S as (_ & _ & R). eapply Rl; [exact R|exact Logic.I].
    + destruct x as [h|]; [|destruct S as (h & _ & [] & _)]. destruct S as (_ & _ & x & L & Sz & Lg & Lk).
      split; [lia|]. exists []. rewrite app_nil_r. split; auto. split; [|split].
      * intros y oy Ly. left. split; auto. unfold live. rewrite Lk. cbn [registers].
        destruct (Nat.eq_dec y h) as [->|Ny].
        -- assert (oy = x) by (eapply live_fun; eauto). subst. eexists. split; [split; [reflexivity|apply L]|]. split; auto.
        -- exists oy. split; [exact Ly|]. now rewrite app_nil_r.
      * intros y Lt Na. rewrite Lk. destruct (Nat.eq_dec y h) as [->|]; [|auto]. exfalso. apply Na. now exists x.
      * intros y Ge. rewrite Lk. destruct (Nat.eq_dec y h) as [->|].
        -- destruct L as [L _]. apply look_lt in L. lia.
        -- rewrite look_big by auto. rewrite Sz. destruct (Nat.ltb_spec y (size s)); auto. lia.
    + destruct S as (_ & S). destruct x, r; try easy. destruct S as (? & ? & ? & ? & _ & A). exact (Af _ A Logic.I).
    + destruct S as (_ & S). destruct x, r; try easy. destruct S as [(? & ? & _ & A)|(? & ? & ? & _ & A)]; exact (Af _ A Logic.I).
    + destruct S as (_ & S). destruct x, p; try easy. destruct S as (? & ? & ? & ? & ? & _ & _ & A). exact (Af _ A Logic.I).
    + destruct S as (_ & S). destruct x, p; try easy. destruct S as (_ & ? & ? & _ & A). exact (Af _ A Logic.I).
    + destruct S as (_ & S). destruct x, e0; try easy. destruct S as (_ & ? & ? & _ & A). exact (Af _ A Logic.I).
    + destruct S as (_ & S). destruct x, e0; try easy. destruct S as (? & ? & ? & ? & ? & ? & _ & _ & A). exact (Af _ A Logic.I).
    + destruct S as (_ & S). destruct x, e0; try easy. destruct S as (? & ? & ? & ? & _ & A). exact (Af _ A Logic.I).
    + destruct x as [h|]; [|destruct S as (h & _ & [] & _)]. destruct S as (_ & (_ & _ & K) & _). exact (Kp K Logic.I).
    + destruct S as (_ & S). destruct x, d; try easy. destruct S as (_ & ? & ? & ? & ? & ? & _ & _ & _ & A). exact (Af _ A Logic.I).
    + destruct S as (_ & S). destruct x, c; try easy. destruct S as (? & ? & _ & _ & A). exact (Af _ A Logic.I).
    + destruct S as (_ & S). destruct x; try easy. destruct S as (_ & p & _ & S). destruct (user_defined p); [exact (Sm S Logic.I)|].
      destruct S as (_ & _ & A). exact (Af _ A Logic.I).
    + destruct S as (_ & S). destruct x; try easy. destruct S as (l & _ & [(_ & _ & E)|(_ & _ & ? & ? & _ & A)]); [exact (Sm E Logic.I)|exact (Af _ A Logic.I)].
    + destruct S as (_ & S). destruct x; try easy. destruct S as (? & ? & ? & _ & _ & _ & A). exact (Af _ A Logic.I).
  - assert (Nz : code =? CCS_RESULT_SUCCESS = false) by (apply Z.eqb_neq; unfold CCS_RESULT_SUCCESS; lia).
    assert (Rg : forall h, registers o code h = []).
    { intros h. destruct o; auto. cbn. destruct x; auto. rewrite Nz. now destruct (Nat.eq_dec h h0). }
    destruct o; cbn [failure] in F; try (apply Un; [apply F|exact Rg]).
    + destruct x as [h|]; [|apply Un; [apply F|exact Rg]]. destruct F as (_ & _ & R). eapply Rl; [exact R|exact Logic.I].
    + destruct x as [h|]; [|apply Un; [apply F|exact Rg]]. destruct v; [apply Un; [apply F|exact Rg]|].
      destruct (refused_values s h l); [|apply Un; [apply F|exact Rg]]. destruct F as (_ & K & _). exact (Kp K Logic.I).
    + destruct x as [h|]; [|apply Un; [apply F|exact Rg]]. destruct F as [F|(? & (_ & _ & K) & _)]; [apply Un; [apply F|exact Rg]|exact (Kp K Logic.I)].
    + destruct x as [h|]; [|apply Un; [apply F|exact Rg]]. destruct F as [F|(_ & _ & _ & ? & ? & ? & ? & _ & _ & _ & _ & _ & _ & A)]; [apply Un; [apply F|exact Rg]|exact (Af _ A Logic.I)].
Qed.

Lemma in_destiny : forall s app lost o code given s1, history s app lost -> allowed s app o ->
  step o s = Done (code, given) s1 -> destiny s o code s1.
Proof. intros. eapply outcome_destiny, in_outcome; eauto. Qed.

Lemma destroyed_dead : forall s h x, destroyed s h x -> ~ alive s h.
Proof.
  intros s h x D (o & L & P). unfold destroyed in D. rewrite L in D. destruct (failing (o_data x)); [|discriminate].
  injection D as ->. cbn in P. lia.
Qed.

Lemma history_log : forall s app lost, history s app lost -> forall h,
  (alive s h -> about h (s_log s) = []) /\
  ((size s <= h)%nat -> about h (s_log s) = []) /\
  ((h < size s)%nat -> ~ alive s h -> exists x, about h (s_log s) = farewell h x /\ destroyed s h x).
Proof.
  induction 1 as [mem|s app lost o code given s1 H IH Al S]; intros h.
  - split; [auto|]. split; [auto|]. unfold size. cbn. lia.
  - destruct (in_destiny _ _ _ _ _ _ _ H Al S) as (Sz & ev & E & Lv & Dd & Nw). rewrite E, about_app.
    destruct (IH h) as (Ia & Ib & Ic). split; [|split].
    + intros A. destruct (Nat.lt_ge_cases h (size s)) as [Lt|Ge].
      * destruct (alive_dec s h) as [Ah|N].
        -- rewrite (Ia Ah). destruct Ah as (x & L). destruct (Lv h x L) as [(-> & _)|(_ & D)]; auto.
           now apply destroyed_dead in D.
        -- exfalso. apply N. destruct (Dd h Lt N) as (Lk & _). unfold alive, live in *. now rewrite Lk in A.
      * rewrite (Ib Ge). specialize (Nw h Ge). destruct A as (x & L & P). rewrite L in Nw. apply Nw.
    + intros Ge. rewrite Ib by lia. specialize (Nw h ltac:(lia)). rewrite look_big in Nw by auto.
      destruct (Nat.ltb_spec h (size s1)); [lia|]. auto.
    + intros Lt N. destruct (Nat.lt_ge_cases h (size s)) as [Lt0|Ge].
      * destruct (alive_dec s h) as [Ah|N0].
        -- rewrite (Ia Ah). destruct Ah as (x & L). destruct (Lv h x L) as [(_ & x' & L' & _)|(-> & D)].
           ++ exfalso. apply N. now exists x'.
           ++ exists x. auto.
        -- destruct (Ic Lt0 N0) as (x & -> & D). destruct (Dd h Lt0 N0) as (Lk & ->). rewrite app_nil_r. exists x. split; auto.
           unfold destroyed in *. now rewrite Lk.
      * rewrite (Ib Ge). specialize (Nw h Ge). destruct (look s1 h) as [x|] eqn:L.
        -- exfalso. apply N. exists x. split; [exact L|apply Nw].
        -- rewrite Nw. destruct (Nat.ltb_spec h (size s1)); [|lia]. exists (mkObj 0 0 [] PPlain). split; [reflexivity|]. exact L.
Qed.

(** ** Calls are defined *)
Lemma in_defined : forall s app lost o, history s app lost -> allowed s app o ->
  (forall h x, live s h x -> o_ref x + takes o <= INT32_MAX) -> takes o < INT32_MAX ->
  exists code given s1, step o s = Done (code, given) s1.
Proof.
  intros s app lost o H Al R T. pose proof (step_done s app (ext app lost) o (in_ok _ _ _ H) (in_app _ _ _ H) Al) as W.
  pose proof (call_rise o s (INT32_MAX - takes o) ltac:(lia)) as B.
  assert (Bl : below (INT32_MAX - takes o) s).
  { intros h x L. destruct (Z.ltb_spec 0 (o_ref x)); [|lia]. specialize (R h x (conj L H0)). lia. }
  specialize (B Bl). unfold step in *. destruct (call o s) as [[code given] s1|c s1|w]; eauto.
  subst w. specialize (B eq_refl). lia.
Qed.
Lemma in_defined_or : forall s app lost o, history s app lost -> allowed s app o ->
  (exists code given s1, step o s = Done (code, given) s1) \/ step o s = Undef UBOverflow.
Proof.
  intros s app lost o H Al. pose proof (step_done s app (ext app lost) o (in_ok _ _ _ H) (in_app _ _ _ H) Al) as W.
  destruct (step o s) as [[code given] s1|c s1|w]; [eauto|tauto|]. right. now subst.
Qed.

(** ** Consequences *)
Lemma history_counted : forall s app lost, history s app lost ->
  counted s (fun x => app x + lost x) /\ sound s /\ forall x, 0 <= app x /\ 0 <= lost x.
Proof. intros s app lost H. destruct (history_ok _ _ _ H) as ((C & S) & A & L). split; [exact C|]. split; [|intros x; split; auto]. intros y o Ly. destruct (S y o Ly) as (Fi & Co & Wa). auto. Qed.

Lemma history_reached : forall s app lost y x, history s app lost -> 0 < app y -> reaches s y x -> alive s x.
Proof.
  intros s app lost y x H P R. destruct (history_ok _ _ _ H) as (O & A & L). eapply reached_alive; eauto.
  cbv beta. specialize (L y). lia.
Qed.
Lemma history_kept_by : forall s app lost x, history s app lost -> alive s x ->
  exists y, reaches s y x /\ (0 < app y \/ 0 < lost y \/ exists z, holder s y z /\ reaches s z y).
Proof.
  intros s app lost x H Ax. destruct (history_ok _ _ _ H) as (O & A & L).
  destruct (kept_by _ _ _ O Ax) as (y & R & [P|C]); exists y; split; auto. specialize (A y); specialize (L y).
  destruct (Z.ltb_spec 0 (app y)); auto. right. left. lia.
Qed.
Lemma history_gone : forall s app lost, history s app lost -> (forall x, app x = 0 /\ lost x = 0) -> ~ cyclic s ->
  forall h, ~ alive s h.
Proof.
  intros s app lost H Z N h A. destruct (history_kept_by _ _ _ _ H A) as (y & _ & [P|[P|C]]).
  - destruct (Z y). lia.
  - destruct (Z y). lia.
  - apply N. destruct C as (z & C). now exists y, z.
Qed.

Lemma in_release : forall s app lost h code given s1, history s app lost -> 0 < app h ->
  step (ORelease (Some h)) s = Done (code, given) s1 ->
  let left x := app x + lost x - is x h in
  given = [] /\ release_code s left h code /\ releases s left s1.
Proof.
  intros s app lost h code given s1 H P S. destruct (in_outcome s app lost H (ORelease (Some h)) _ _ _ P S) as [(-> & Sx)|(_ & F)]; [exact Sx|exact F].
Qed.

Lemma in_restores : forall s app lost o code given s1, history s app lost -> allowed s app o ->
  step o s = Done (code, given) s1 -> code < 0 -> restores s o -> given = [] /\ undisturbed s s1.
Proof.
  intros s app lost o code given s1 H Al S N R. destruct (in_outcome s app lost H _ _ _ _ Al S) as [(-> & _)|(_ & F)]; [discriminate|].
  destruct o; cbn [failure restores] in *; try exact F.
  - destruct x; [easy|exact F].
  - destruct x; [|exact F]. destruct v; [exact F|]. now rewrite R in F.
  - destruct x; [easy|exact F].
  - destruct x; [easy|exact F].
Qed.
Lemma in_code : forall s app lost o code given s1, history s app lost -> allowed s app o ->
  step o s = Done (code, given) s1 -> code = CCS_RESULT_SUCCESS \/ code < 0.
Proof. intros s app lost o code given s1 H Al S. destruct (in_outcome s app lost H _ _ _ _ Al S) as [(-> & _)|(N & _)]; auto. Qed.
