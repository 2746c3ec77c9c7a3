(** Every call has the outcome it should have, and keeps the books. *)
From Coq Require Import ZArith List Bool Lia.
From Verif Require Import Base LifeModel LifeSpec LifeEffects LifeProofs LifeOps LifeCalls LifeCalls2
  LifeCalls3 LifeCalls4 LifeCalls5 LifeCalls6 LifeCalls7.
Import ListNotations.
Open Scope Z_scope.

Lemma kind_live : forall s h o, live s h o -> kind s h = Some (o_type o).
Proof. intros s h o [L P]. unfold kind. rewrite L. apply Z.ltb_lt in P. now rewrite P. Qed.
Lemma data_live : forall s h o, live s h o -> data s h = Some (o_data o).
Proof. intros s h o [L P]. unfold data. rewrite L. apply Z.ltb_lt in P. now rewrite P. Qed.
Lemma kind_alive : forall s h t, kind s h = Some t -> exists o, live s h o /\ o_type o = t.
Proof.
  intros s h t. unfold kind. destruct (look s h) as [o|] eqn:L; [|discriminate].
  destruct (Z.ltb_spec 0 (o_ref o)); [|discriminate]. intros [= <-]. exists o. repeat split; auto.
Qed.
Lemma data_alive : forall s h p, data s h = Some p -> exists o, live s h o /\ o_data o = p.
Proof.
  intros s h t. unfold data. destruct (look s h) as [o|] eqn:L; [|discriminate].
  destruct (Z.ltb_spec 0 (o_ref o)); [|discriminate]. intros [= <-]. exists o. repeat split; auto.
Qed.

(** ** Releases *)

(** Nothing that is doomed stays. *)
Lemma doomed_gone : forall s e s' ev x, effect s e s' ev -> counted s' e -> doomed s e x -> ~ alive s' x.
Proof.
  intros s e s' ev x F C D. induction D as [x A E Ho IH]. intros (o' & L').
  pose proof (counted_live _ _ _ _ C L') as R. destruct L' as [L' P'].
  destruct (held_holder s' x) as (y & H); [lia|].
  pose proof H as (oy & Ly & _).
  assert (holder s y x) as H0.
  { destruct H as (oy' & Ly' & Hy). destruct (effect_stays _ _ _ _ _ _ F Ly') as (o1 & L1 & E1).
    exists o1. split; auto. rewrite E1 in Hy. exact Hy. }
  apply (IH y H0). exists oy. exact Ly.
Qed.

Lemma effect_releases : forall s e s' ev, effect s e s' ev -> ok s' e -> releases s e s'.
Proof.
  intros s e s' ev F O. split; [apply F|]. exists ev. split; [apply F|].
  split; [|split].
  - intros x o L. destruct (ef_live _ _ _ _ F x o L) as [((r & R & S) & A)|(G & A & D)].
    + right. split; [|split; [auto|exists r; split; [lia|exact S]]].
      intros D. eapply doomed_gone; eauto; [apply O|]. exists (with_ref o r). split; auto. cbn. lia.
    + left. split; auto. split; auto. now apply gone_destroyed.
  - intros x N. split; [|now apply (ef_dead _ _ _ _ F)].
    destruct (look s x) as [o|] eqn:X.
    + apply (ef_dying _ _ _ _ F); auto. destruct (Z_lt_dec 0 (o_ref o)); [|lia]. exfalso. apply N. exists o. split; auto.
    + now apply (ef_none _ _ _ _ F).
  - apply F.
Qed.

Lemma failing_user : forall p c, user_del p = Some c -> c < 0 -> failing p = true.
Proof. intros [] k; cbn; try discriminate; intros [= ->] N; now apply Z.ltb_lt. Qed.

Lemma bindp_done : forall A B (p : prog A) (f : A -> prog B) s b s1,
  bindp p f s = Done b s1 -> exists a s', p s = Done a s' /\ f a s' = Done b s1.
Proof. unfold bindp. intros A B p f s b s1. destruct (p s) as [a s'| |]; try discriminate. eauto. Qed.
Lemma orelse_done : forall A (p : prog A) c s a s1, orelse p c s = Done a s1 -> p s = Done a s1.
Proof. unfold orelse. intros A p c s a s1. destruct (p s); auto. destruct (c s0); discriminate. Qed.

Section Calls.
Variables (s0 : st) (e0 : handle -> Z).
Hypothesis O0 : ok s0 e0.

Lemma release_call_ok : forall x, own e0 x ->
  let after_ s1 := exists h, x = Some h /\ ok s1 (minus e0 h) /\ releases s0 (minus e0 h) s1 in
  wp (release x) s0
     (fun _ s1 => after_ s1 /\ forall h, x = Some h -> release_code s0 (minus e0 h) h CCS_RESULT_SUCCESS)
     (fun c s1 => failed_ s0 e0 c s1 /\ x = None \/
                  after_ s1 /\ c < 0 /\ forall h, x = Some h -> release_code s0 (minus e0 h) h c).
Proof.
  intros [h|] Ow after_.
  - cbn in Ow. destruct (release_ok s0 e0 h O0 Ow) as (s' & ev & R & F & O').
    assert (after_ s').
    { exists h. split; auto. split; auto. eapply effect_releases; eauto. }
    destruct (ok_alive _ _ _ O0 Ow) as (o & L).
    unfold wp. destruct R as [R|(c & o1 & R & N & L1 & U & G)]; rewrite R.
    + split; auto. intros h1 [= <-]. exists o. split; auto. left. split; auto.
      intros D. destruct (failing (o_data o)) eqn:Fl; auto. exfalso.
      (* the release of a doomed object whose del function refuses fails *)
      destruct (ef_live _ _ _ _ F h o L) as [((r & Pr & S) & _)|(G & _)].
      { eapply doomed_gone; eauto; [apply O'|]. exists (with_ref o r). split; auto. cbn. lia. }
      revert R. unfold release. cbn [release_n]. unfold bindp at 1. rewrite (deref_look _ _ _ (proj1 L)).
      unfold bindp at 1, refutep. destruct (Z.leb_spec (o_ref o) 0); [destruct L; lia|]. cbn [ret].
      unfold bindp at 1, store at 1. destruct (Z.eqb_spec (o_ref o - 1) 0) as [Z1|Z1].
      * intros R. apply bindp_done in R as (? & ? & _ & R). apply bindp_done in R as (? & ? & R & _).
        destruct (o_data o); try discriminate Fl; cbn [user_del failing] in R, Fl; rewrite Fl in R;
          apply bindp_done in R as (? & ? & _ & R); apply bindp_done in R as (? & ? & _ & R); discriminate R.
      * unfold ret. intros [= <-]. eapply (doomed_gone s0 _ _ ev h F (proj1 O') D).
        eexists. split; [rewrite look_put by (eapply look_lt; apply L)|].
        -- destruct (Nat.eq_dec h h); [reflexivity|easy].
        -- destruct L. cbn. lia.
    + right. split; auto. split; auto. intros h1 [= <-]. assert (o1 = o) by (eapply live_fun; eauto). subst o1.
      exists o. split; auto. right. split; auto. split.
      * destruct (ef_live _ _ _ _ F h o L) as [((r & Pr & S) & _)|(_ & _ & D)]; auto. exfalso.
        unfold gone in G. rewrite S in G. destruct (zombie _); [|easy]. injection G as G. rewrite G in Pr. lia.
      * destruct (o_data o); cbn in U; try discriminate; injection U as ->;
          [exists cs, os, h, h, h|exists cs, os, fs, h, h|exists h, h, h, rng, tree]; auto.
  - unfold wp, release. cbn. left. split; auto. pose proof (at_refl s0 e0 O0) as A0. failing_.
Qed.

(** ** From the programs to the tables *)

Lemma wp_give : forall p s (Q : (Z * list handle) -> st -> Prop) (F : Z -> st -> Prop),
  wp p s (fun h s1 => Q (CCS_RESULT_SUCCESS, [h]) s1) F -> wp (give p) s Q F.
Proof.
  intros p s Q F H. unfold give. apply wp_bind. eapply wp_conseq; [exact H| |auto]. intros h s1 H1. now apply wp_ret.
Qed.
Lemma wp_act : forall p s (Q : (Z * list handle) -> st -> Prop) (F : Z -> st -> Prop),
  wp p s (fun _ s1 => Q (CCS_RESULT_SUCCESS, []) s1) F -> wp (act p) s Q F.
Proof.
  intros p s Q F H. unfold act. apply wp_bind. eapply wp_conseq; [exact H| |auto]. intros h s1 H1. now apply wp_ret.
Qed.

(** The references outside of objects after a call. *)
Definition outside (o : op) (code : Z) (given : list handle) (s1 : st) : handle -> Z :=
  fun x => account o code given e0 x + mislaid o given s0 s1 x.

Definition done_ (o : op) (r : Z * list handle) (s1 : st) : Prop :=
  outcome s0 e0 o (fst r) (snd r) s1 /\ ok s1 (outside o (fst r) (snd r) s1).

Lemma refused_done : forall o c s1, failed_ s0 e0 c s1 ->
  failure s0 e0 o c [] s1 -> (forall x, account o c [] e0 x + mislaid o [] s0 s1 x = e0 x) -> done_ o (c, []) s1.
Proof.
  intros o c s1 (N & O & U) H E. split.
  - right. split; auto.
  - eapply ok_ext; [|exact O]. intros x. unfold outside. cbn [fst snd]. now rewrite E.
Qed.

Lemma made_done : forall o h s1 t p, made_ s0 e0 t p h s1 ->
  (success s0 e0 o [h] s1 = exists h', [h] = [h'] /\ makes s0 o h' s1 /\ kept s0 s1) ->
  makes s0 o h s1 ->
  (forall x, account o CCS_RESULT_SUCCESS [h] e0 x + mislaid o [h] s0 s1 x = e0 x + times x [h]) ->
  done_ o (CCS_RESULT_SUCCESS, [h]) s1.
Proof.
  intros o h s1 t p (O & K & Fr) E M B. split.
  - left. split; auto. cbn [snd fst]. rewrite E. exists h. auto.
  - eapply ok_ext; [|exact O]. intros x. unfold outside. cbn [fst snd]. rewrite B, times_cons, times_nil. unfold plus. lia.
Qed.

Lemma changed_done : forall o h p s1, changed_ s0 e0 h p s1 ->
  (success s0 e0 o [] s1 = (@nil handle = [] /\ changes s0 o s1)) ->
  (after s0 (Some (h, p)) s1 -> changes s0 o s1) ->
  (forall x, account o CCS_RESULT_SUCCESS [] e0 x + mislaid o [] s0 s1 x = e0 x) ->
  done_ o (CCS_RESULT_SUCCESS, []) s1.
Proof.
  intros o h p s1 (O & Af & _) E M B. split.
  - left. split; auto. cbn [snd fst]. rewrite E. auto.
  - eapply ok_ext; [|exact O]. intros x. unfold outside. cbn [fst snd]. now rewrite B.
Qed.

Lemma same_done : forall o, (success s0 e0 o [] s0 = (@nil handle = [] /\ changes s0 o s0)) -> changes s0 o s0 ->
  (forall x, account o CCS_RESULT_SUCCESS [] e0 x + mislaid o [] s0 s0 x = e0 x) ->
  done_ o (CCS_RESULT_SUCCESS, []) s0.
Proof.
  intros o E M B. split.
  - left. split; auto. cbn [snd fst]. rewrite E. auto.
  - eapply ok_ext; [|exact O0]. intros x. unfold outside. cbn [fst snd]. now rewrite B.
Qed.

Ltac books :=
  intros; unfold outside, account, mislaid; cbn [is_some fst snd]; rewrite ?times_nil;
  try match goal with
      | |- context [?c =? CCS_RESULT_SUCCESS] =>
          destruct (Z.eqb_spec c CCS_RESULT_SUCCESS); [unfold CCS_RESULT_SUCCESS in *; lia|]
      end; lia.
Ltac fails := 
  match goal with |- forall c s1, _ -> _ => 
    let N := fresh in let O := fresh in let U := fresh in
    let k := fresh "k" in let s1 := fresh "s1" in intros k s1 (N & O & U); 
    apply refused_done; [split; [exact N|split; [exact O|exact U]] |split; [reflexivity|exact U] | books]
  end.

Variable app : handle -> Z.
Hypothesis Has : forall h, app h <= e0 h.

Lemma mine_own : forall x, mine app x -> own e0 x.
Proof. intros [h|]; cbn; auto. specialize (Has h). lia. Qed.

Lemma nth_index : forall A (l : list A) i a b, nth_error l i = Some a -> at_index l (set_nth l i b) i a b.
Proof.
  induction l as [|c l IH]; intros [|i] a b E; cbn in *; try discriminate.
  - injection E as ->. exists [], l. auto.
  - destruct (IH i a b E) as (l1 & l2 & -> & E' & Ln). rewrite E'. exists (c :: l1), l2. cbn. auto.
Qed.

Lemma call_ok : forall o, allowed s0 app o ->
  wp (call o) s0 (done_ o) (fun c s1 => done_ o (c, []) s1).
Proof.
  intros o Al. destruct o; cbn [allowed] in Al; cbn [call].
  - (* retain *) apply wp_act. eapply wp_conseq; [apply (retain_call_ok s0 e0 O0); exact Al| |fails].
    intros _ s1 (h & o & -> & L & O & N). split.
    + left. split; auto. split; auto. exists o. split; auto.
    + eapply ok_ext; [|exact O]. intros x. unfold outside, account, mislaid. cbn [fst snd]. rewrite times_nil. cbn. unfold plus. lia.
  - (* release *) apply wp_act. eapply wp_conseq; [apply release_call_ok, mine_own; exact Al| |].
    + intros _ s1 ((h & -> & O & R) & C). split.
      * left. split; auto. split; auto. split; auto. apply C. auto.
      * eapply ok_ext; [|exact O]. intros y. unfold outside, account, mislaid. cbn [fst snd]. rewrite times_nil. cbn. unfold minus. lia.
    + intros c s1 [(Fl & ->)|((h & -> & O & R) & N & C)].
      * revert c s1 Fl. fails.
      * split.
        -- right. split; auto. split; auto. split; auto. apply C. auto.
        -- eapply ok_ext; [|exact O]. intros y. unfold outside, account, mislaid. cbn [fst snd]. rewrite times_nil. cbn. unfold minus. lia.
  - (* callback *) apply wp_act. eapply wp_conseq; [apply (set_destroy_callback_ok s0 e0 O0); exact Al| |fails].
    intros _ s1 (h & o & -> & L & Nz & O & N). split.
    + left. split; auto. split; auto. split; auto. exists o. split; auto.
    + eapply ok_ext; [|exact O]. books.
  - apply wp_give. eapply wp_conseq; [apply (create_plain_ok s0 e0 O0); exact Al| |fails].
    intros h s1 M. eapply made_done; [exact M|reflexivity|apply M|books].
  - apply wp_give. eapply wp_conseq; [apply (create_map_ok s0 e0 O0)| |fails].
    intros h s1 M. eapply made_done; [exact M|reflexivity|apply M|books].
  - apply wp_give. eapply wp_conseq; [apply (create_context_ok s0 e0 O0); destruct features; cbn; auto| |fails].
    intros h s1 M. eapply made_done; [exact M|reflexivity|destruct features; apply M|books].
  - apply wp_give. eapply wp_conseq; [apply (create_configuration_space_ok s0 e0 O0)| |fails].
    intros h s1 (r & N & Fr & M). eapply made_done; [exact M|reflexivity|exists r; split; [auto|split; [auto|apply M]]|books].
  - apply wp_give. eapply wp_conseq; [apply (create_multivariate_ok s0 e0 O0); exact Al| |fails].
    intros h s1 (ds & E & M). eapply made_done; [exact M|reflexivity|exists ds; split; [auto|apply M]|books].
  - apply wp_give. eapply wp_conseq; [apply (create_mixture_ok s0 e0 O0); exact Al| |fails].
    intros h s1 (ds & E & M). eapply made_done; [exact M|reflexivity|exists ds; split; [auto|apply M]|books].
  - apply wp_give. eapply wp_conseq; [apply (create_variable_ok s0 e0 O0); exact Al| |fails].
    intros h s1 (p & -> & M). eapply made_done; [exact M|reflexivity|apply M|books].
  - apply wp_give. eapply wp_conseq; [apply (create_expression_ok s0 e0 O0); exact Al| |fails].
    intros h s1 (nodes & F & M). eapply made_done; [exact M|reflexivity|exists nodes; split; [|apply M]|books].
    eapply Forall2_weak; [|exact F]. intros [[k|]| |] y Hy; cbn in *; auto.
    destruct Hy as (o & L & H). rewrite (kind_live _ _ _ L).
    destruct H as [(T & ->)|(T & H)]; rewrite T; auto.
  - (* configuration *) apply wp_give. eapply wp_conseq; [apply (create_configuration_ok s0 e0 O0); exact Al| |].
    + intros h s1 (Lk & cs & -> & M). eapply made_done; [exact M|reflexivity|apply M|].
      unfold leaks in Lk. intros y. unfold account, mislaid. destruct v; [|rewrite Lk]; lia.
    + intros c s1 H. unfold leaks in H. destruct x as [h|]; [|revert H; revert c s1; fails].
      destruct v as [n|l]; [revert H; revert c s1; fails|].
      destruct (refused_values s0 h l) eqn:Rf.
      * destruct H as (cs & [= <-] & N & O & K & Lk). split.
        -- right. split; auto. cbn [failure fst snd]. rewrite Rf. auto.
        -- eapply ok_ext; [|exact O]. intros y. unfold outside, account, mislaid. cbn [fst snd]. rewrite Rf, times_nil. unfold plus. lia.
      * destruct H as (N & O & U). split.
        -- right. split; auto. cbn [failure fst snd]. rewrite Rf. auto.
        -- eapply ok_ext; [|exact O]. intros y. unfold outside, account, mislaid. cbn [fst snd]. rewrite Rf, times_nil. lia.
  - apply wp_give. eapply wp_conseq; [apply (create_features_ok s0 e0 O0); exact Al| |fails].
    intros h s1 (p & -> & M). eapply made_done; [exact M|reflexivity|apply M|books].
  - apply wp_give. destruct Al. eapply wp_conseq; [apply (create_evaluation_ok s0 e0 O0); auto| |fails].
    intros h s1 (p & q & -> & -> & M). eapply made_done; [exact M|reflexivity|apply M|books].
  - apply wp_give. destruct Al. eapply wp_conseq; [apply (create_tree_evaluation_ok s0 e0 O0); auto| |fails].
    intros h s1 (p & q & -> & -> & M). eapply made_done; [exact M|reflexivity|apply M|books].
  - apply wp_give. destruct Al as (? & ? & ?). eapply wp_conseq; [apply (create_features_evaluation_ok s0 e0 O0); auto| |fails].
    intros h s1 (p & q & r & -> & -> & -> & M). eapply made_done; [exact M|reflexivity|apply M|books].
  - apply wp_give. eapply wp_conseq; [apply (create_tree_configuration_ok s0 e0 O0); exact Al| |fails].
    intros h s1 (p & -> & M). eapply made_done; [exact M|reflexivity|apply M|books].
  - apply wp_give. destruct Al. eapply wp_conseq; [apply (create_random_tuner_ok s0 e0 O0); auto| |fails].
    intros h s1 (p & q & -> & -> & M). eapply made_done; [exact M|reflexivity|apply M|books].
  - apply wp_give. destruct Al. eapply wp_conseq; [apply (create_random_tree_tuner_ok s0 e0 O0); auto| |fails].
    intros h s1 (p & q & -> & -> & M). eapply made_done; [exact M|reflexivity|apply M|books].
  - apply wp_give. destruct Al as (? & ? & ?). eapply wp_conseq; [apply (create_random_features_tuner_ok s0 e0 O0); auto| |fails].
    intros h s1 (p & q & r & -> & -> & -> & M). eapply made_done; [exact M|reflexivity|apply M|books].
  - apply wp_give. destruct Al. eapply wp_conseq; [apply (create_user_tuner_ok s0 e0 O0); auto| |fails].
    intros h s1 (p & q & -> & -> & M). eapply made_done; [exact M|reflexivity|apply M|books].
  - apply wp_give. destruct Al. eapply wp_conseq; [apply (create_user_tree_tuner_ok s0 e0 O0); auto| |fails].
    intros h s1 (p & q & -> & -> & M). eapply made_done; [exact M|reflexivity|apply M|books].
  - apply wp_give. destruct Al as (? & ? & ?). eapply wp_conseq; [apply (create_user_features_tuner_ok s0 e0 O0); auto| |fails].
    intros h s1 (p & q & r & -> & -> & -> & M). eapply made_done; [exact M|reflexivity|apply M|books].
  - apply wp_give. eapply wp_conseq; [apply (create_tree_ok s0 e0 O0)| |fails].
    intros h s1 M. eapply made_done; [exact M|reflexivity|apply M|books].
  - apply wp_give. eapply wp_conseq; [apply (create_static_tree_space_ok s0 e0 O0); exact Al| |fails].
    intros h s1 (t & r & -> & N & Fr & M). eapply made_done; [exact M|reflexivity|exists r; split; [auto|split; [auto|apply M]]|books].
  - apply wp_give. eapply wp_conseq; [apply (create_dynamic_tree_space_ok s0 e0 O0); exact Al| |fails].
    intros h s1 (t & r & -> & N & Fr & M). eapply made_done; [exact M|reflexivity|exists r; split; [auto|split; [auto|apply M]]|books].
  - (* set rng *) apply wp_act. destruct Al as (M & V). apply mine_own in M.
    eapply wp_conseq; [apply (space_set_rng_ok s0 e0 O0); auto| |fails].
    intros _ s1 (h & g & o & ps & cl & ds & tmp & -> & -> & L & D & C).
    eapply changed_done; [exact C|reflexivity| |books]. intros Af. exists ps, cl, ds, tmp.
    rewrite (data_live _ _ _ L), D. auto.
  - apply wp_act. destruct Al as (M & V). apply mine_own in M.
    eapply wp_conseq; [apply (tree_space_set_rng_ok s0 e0 O0); auto| |fails].
    intros _ s1 (h & g & o & p' & -> & -> & L & D & C).
    eapply changed_done; [exact C|reflexivity| |books]. intros Af. cbn. rewrite (data_live _ _ _ L).
    destruct D as [(tmp & t & D & ->)|(c & tmp & t & D & ->)]; rewrite D; eauto 8.
  - (* add parameter *) apply wp_act. destruct Al as (M & V & Vd). apply mine_own in M.
    eapply wp_conseq; [apply (space_add_parameter_ok s0 e0 O0); auto| |fails].
    intros _ s1 (h & g & k & o & ps & cl & ds & rg & -> & -> & L & D & K & C).
    eapply changed_done; [exact C|reflexivity| |books]. intros Af. exists k, ps, cl, ds, rg.
    rewrite (data_live _ _ _ L), D. auto.
  - apply wp_act. destruct Al as (M & V). apply mine_own in M.
    eapply wp_conseq; [apply (context_add_parameter_ok s0 e0 O0); auto; destruct features; cbn; auto| |fails].
    intros _ s1 (h & g & o & ps & es & -> & -> & L & T & D & C).
    eapply changed_done; [exact C|reflexivity| |books]. intros Af. cbn.
    rewrite (kind_live _ _ _ L), T, (data_live _ _ _ L), D. split; [now destruct features|eauto].
  - apply wp_act. destruct Al as (M & V). apply mine_own in M.
    eapply wp_conseq; [apply (add_objective_ok s0 e0 O0); auto| |fails].
    intros _ s1 (h & g & o & ps & es & -> & -> & L & T & D & C).
    eapply changed_done; [exact C|reflexivity| |books]. intros Af. cbn.
    rewrite (kind_live _ _ _ L), T, (data_live _ _ _ L), D. split; [auto|eauto].
  - apply wp_act. destruct Al as (M & V). apply mine_own in M.
    eapply wp_conseq; [apply (set_condition_ok s0 e0 O0); auto| |fails].
    intros _ s1 (h & g & o & ps & cl & ds & rg & par & -> & -> & L & D & N & _ & C).
    eapply changed_done; [exact C|reflexivity| |books]. intros Af. exists ps, (set_nth ps i (par, Some g)), cl, ds, rg, par.
    rewrite (data_live _ _ _ L), D. split; auto. split; auto. now apply nth_index.
  - apply wp_act. destruct Al as (M & V). apply mine_own in M.
    eapply wp_conseq; [apply (add_forbidden_clause_ok s0 e0 O0); auto| |fails].
    intros _ s1 (h & g & o & ps & cl & ds & rg & -> & -> & L & D & C).
    eapply changed_done; [exact C|reflexivity| |books]. intros Af. exists ps, cl, ds, rg.
    rewrite (data_live _ _ _ L), D. auto.
  - apply wp_give. eapply wp_conseq; [apply (get_default_configuration_ok s0 e0 O0); exact Al| |fails].
    intros h s1 (p & -> & M). eapply made_done; [exact M|reflexivity|apply M|books].
  - apply wp_give. destruct Al. eapply wp_conseq; [apply (space_sample_ok s0 e0 O0); auto| |fails].
    intros h s1 (p & -> & M). eapply made_done; [exact M|reflexivity|apply M|books].
  - (* samples *) destruct Al as (V & Er). eapply wp_conseq; [apply (space_samples_ok s0 e0 O0); auto| |].
    + intros [code arr] s1 (cs & -> & rest & A & (Nd & Fo & Only) & L1 & Lw & H). cbn [fst snd] in *.
      assert (Mis : forall y, mislaid (OSamples (Some cs) want l) arr s0 s1 y = times y rest).
      { intros y. unfold mislaid. rewrite Forall_forall in Fo.
        assert (Nr : NoDup rest) by (eapply nodup_app_r; eauto).
        destruct (in_dec Nat.eq_dec y rest) as [I|I].
        - rewrite (times_nodup _ _ Nr I). destruct (Fo y) as (G & Ly); [apply in_or_app; auto|]. rewrite Ly. cbn [o_ref].
          apply Nat.leb_le in G. rewrite G. cbn.
          destruct (existsb (Nat.eqb y) arr) eqn:X; auto. apply memb_in in X. exfalso. eapply nodup_app_d; eauto.
        - assert (times y rest = 0) as ->.
          { unfold times. now rewrite (proj1 (count_occ_not_In Nat.eq_dec rest y) I). }
          destruct (look s1 y) as [oy|] eqn:Ly; auto.
          destruct ((0 <? o_ref oy) && (size s0 <=? y)%nat && negb (existsb (Nat.eqb y) arr)) eqn:X; auto.
          apply andb_true_iff in X as [X X3]. apply andb_true_iff in X as [X1 X2].
          apply Nat.leb_le in X2. apply negb_true_iff, memb_out in X3.
          pose proof (Only y oy X2 Ly) as J. apply in_app_or in J as [J|J]; contradiction. }
      assert (Sm : samples s0 cs (arr ++ rest) s1) by (split; [auto|split; [auto|apply A]]).
      split; cbn [fst snd].
      * destruct H as [(-> & Ln & ->)|(N & Lt & Or)].
        -- left. split; auto. cbn [success]. rewrite app_nil_r in *. split; [auto|]. split; [auto|exact Only].
        -- right. split; auto. right. exists rest. split; auto. split; auto. split; auto. split; [|exact Only].
           intros Nc. destruct Or; [contradiction|auto].
      * eapply ok_ext; [|apply A]. intros y. unfold outside. rewrite Mis. unfold account. lia.
    + intros c s1 (N & O & U). split.
      * right. split; auto. destruct x; [left|]; split; auto.
      * eapply ok_ext; [|exact O]. intros y. unfold outside, account. cbn [fst snd]. rewrite times_nil. unfold mislaid.
        destruct U as (K & U). rewrite U. destruct (look s0 y) as [oy|] eqn:Ly; [|lia].
        apply look_lt in Ly. destruct (Nat.leb_spec (size s0) y); [lia|]. rewrite andb_false_r. cbn. lia.
  - (* distribution *) apply wp_act. destruct Al as (M & V & Ne & Mm). apply mine_own in M.
    eapply wp_conseq; [apply (set_distribution_ok s0 e0 O0); auto| |fails].
    intros _ s1 (h & g & o & ps & cl & ds & rg & more & -> & -> & L & D & Ni & Bi & Dm & N1 & Sn & Hm & N2 & C).
    eapply changed_done; [exact C|reflexivity| |books]. intros Af. split; auto.
    exists ps, cl, ds, (untouched idx ds ++ (g, idx) :: more), rg. rewrite (data_live _ _ _ L), D.
    split; [auto|]. split; [auto|]. split; [|exact Af]. exists more. split; [reflexivity|].
    split; [intros w Iw; split; [apply Dm; auto|auto]|]. auto.
  - (* child *) apply wp_act. destruct Al as (M & V). apply mine_own in M.
    eapply wp_conseq; [apply (tree_set_child_ok s0 e0 O0); auto| |fails].
    intros _ s1 (h & g & o & ch & -> & -> & L & D & N & _ & _ & C).
    eapply changed_done; [exact C|reflexivity| |books]. intros Af. exists ch, (set_nth ch i (Some g)).
    rewrite (data_live _ _ _ L), D. split; auto. split; auto. now apply nth_index.
  - (* tell *) apply wp_act. destruct Al as (Ht & M & V). apply mine_own in M.
    assert (Goods : forall l : list (option handle * bool), goods l = kept_evaluations l).
    { intros l'. unfold goods, kept_evaluations. apply flat_map_ext. intros [[k|] []]; reflexivity. }
    assert (Typed : forall l : list (option handle * bool), Forall (typed s0 (evaluation_type t)) l <-> evaluations s0 t l).
    { intros l'. rewrite Forall_forall. unfold evaluations, typed. split; intros H e I; specialize (H e I).
      - destruct H as (k & o & E & L & T). exists k. split; auto. rewrite (kind_live _ _ _ L), T. reflexivity.
      - destruct H as (k & E & K). apply kind_alive in K as (o & L & T). exists k, o. split; auto. }
    assert (Ud : forall h o, live s0 h o -> o_type o = t -> user_defined (o_data o) = match user_del (o_data o) with Some _ => true | None => false end).
    { intros h o L T. destruct (proj2 O0 h o L) as (Ft & _). destruct (o_data o); auto. cbn in Ft. rewrite T in Ft.
      exfalso. clear -Ht Ft. subst t. compute in Ht. intuition discriminate. }
    eapply wp_conseq; [apply (tuner_tell_ok s0 e0 O0); auto| |].
    + intros _ s1 (h & o & -> & L & T & [(U & ->)|(U & F & C & Lg)]).
      * apply same_done; [reflexivity| |books]. cbn. rewrite (kind_live _ _ _ L), T, (data_live _ _ _ L). split; auto.
        exists (o_data o). split; auto. pose proof (Ud h o L T) as E. destruct (user_del (o_data o)); [|congruence]. rewrite E. auto.
      * eapply changed_done; [exact C|reflexivity| |books]. intros Af. cbn. rewrite (kind_live _ _ _ L), T, (data_live _ _ _ L). split; auto.
        exists (o_data o). split; auto. pose proof (Ud h o L T) as E. rewrite U in E. rewrite E. split; [now apply Typed|]. split; auto. rewrite <- Goods. exact Af.
    + intros c s1 (N & [(_ & O & U)|(h & o & l1 & e & l2 & -> & -> & L & T & U & -> & F & Ne & C & Lg)]).
      * apply refused_done; [split; [exact N|split; [exact O|exact U]]| |books].
        destruct x; [left|]; split; auto.
      * pose proof C as (O & Af & _). split.
        -- right. split; auto. right. split; auto. split; auto. rewrite (kind_live _ _ _ L), T, (data_live _ _ _ L).
           split; auto. exists (o_data o), l1, e, l2. split; auto. pose proof (Ud h o L T) as E. rewrite U in E. rewrite E. split; auto. split; auto.
           split; [now apply Typed|]. split; [|split; [auto|rewrite <- Goods; exact Af]].
           intros E1. apply Ne. apply Typed in E1. now inversion E1.
        -- eapply ok_ext; [|exact O]. books.
  - (* map set *) apply wp_act. destruct Al as (M & Vk & Vv). apply mine_own in M.
    eapply wp_conseq; [apply (map_set_ok s0 e0 O0); auto| |fails].
    intros _ s1 (m & o & l & -> & L & T & D & [(Sm & Ex & ->)|(Nk & Nv & l1 & l2 & Hl & C)]).
    + apply same_done; [reflexivity| |books]. exists l. rewrite (data_live _ _ _ L), D. split; auto.
    + eapply changed_done; [exact C|reflexivity| |books]. intros Af. exists l. rewrite (data_live _ _ _ L), D. split; auto.
      right. split; auto. split; auto. exists l1, l2. split; auto.
  - (* map del *) apply wp_act. apply mine_own in Al.
    eapply wp_conseq; [apply (map_del_ok s0 e0 O0); auto| |fails].
    intros _ s1 (m & o & l1 & a & l2 & -> & L & T & D & Ek & N & C).
    eapply changed_done; [exact C|reflexivity| |books]. intros Af. exists l1, a, l2. rewrite (data_live _ _ _ L), D. auto.
Qed.
End Calls.
