(** How far the counts may rise in one call. *)
From Coq Require Import ZArith List Bool Lia.
From Verif Require Import Base LifeModel LifeSpec LifeEffects LifeProofs LifeOps.
Import ListNotations.
Open Scope Z_scope.

Definition below (m : Z) (s : st) : Prop := forall h o, look s h = Some o -> o_ref o <= m.

Definition rise {A} (n : Z) (p : prog A) : Prop :=
  forall s m, 1 <= m -> below m s ->
  match p s with
  | Done _ s' => below (m + n) s'
  | Fail _ s' => below (m + n) s'
  | Undef w => w = UBOverflow -> INT32_MAX < m + n
  end.

Lemma below_le : forall m m' s, m <= m' -> below m s -> below m' s.
Proof. intros m m' s L B h o H. specialize (B h o H). lia. Qed.

Lemma rise_le : forall A n n' (p : prog A), n <= n' -> rise n p -> rise n' p.
Proof.
  intros A n n' p L R s m M B. specialize (R s m M B). destruct (p s); try (eapply below_le; [|exact R]; lia).
  intros E. specialize (R E). lia.
Qed.
Lemma rise_bind : forall A B (p : prog A) (f : A -> prog B) n k, 0 <= n -> 0 <= k ->
  rise n p -> (forall a, rise k (f a)) -> rise (n + k) (bindp p f).
Proof.
  intros A B p f n k N K R F s m M Bl. unfold bindp. specialize (R s m M Bl). destruct (p s) as [a s1|c s1|w].
  - specialize (F a s1 (m + n) ltac:(lia) R). replace (m + (n + k)) with (m + n + k) by lia. exact F.
  - eapply below_le; [|exact R]. lia.
  - intros E. specialize (R E). lia.
Qed.
Lemma rise_orelse : forall A (p : prog A) c n k, 0 <= n -> 0 <= k -> rise n p -> rise k c -> rise (n + k) (orelse p c).
Proof.
  intros A p c n k N K R F s m M Bl. unfold orelse. specialize (R s m M Bl). destruct (p s) as [a s1|e s1|w].
  - eapply below_le; [|exact R]. lia.
  - specialize (F s1 (m + n) ltac:(lia) R). replace (m + (n + k)) with (m + n + k) by lia. destruct (c s1); exact F.
  - intros E. specialize (R E). lia.
Qed.
Lemma rise_orelse0 : forall A (p : prog A) c n, 0 <= n -> rise n p -> rise 0 c -> rise n (orelse p c).
Proof. intros. replace n with (n + 0) by lia. apply rise_orelse; auto; lia. Qed.
Lemma rise_bind0 : forall A B (p : prog A) (f : A -> prog B) k, 0 <= k -> rise 0 p -> (forall a, rise k (f a)) -> rise k (bindp p f).
Proof. intros. replace k with (0 + k) by lia. apply rise_bind; auto; lia. Qed.
Lemma rise_bind1 : forall A B (p : prog A) (f : A -> prog B) k, 0 <= k -> rise 1 p -> (forall a, rise k (f a)) -> rise (1 + k) (bindp p f).
Proof. intros. apply rise_bind; auto; lia. Qed.
Lemma rise_ignore : forall A (p : prog A) n, rise n p -> rise n (ignore p).
Proof. intros A p n R s m M B. unfold ignore. specialize (R s m M B). destruct (p s); auto. Qed.
Lemma rise_ret : forall A (a : A), rise 0 (ret a).
Proof. intros A a s m M B. cbn. now rewrite Z.add_0_r. Qed.
Lemma rise_raise : forall A c, rise 0 (@raise A c).
Proof. intros A c s m M B. cbn. now rewrite Z.add_0_r. Qed.
Lemma rise_undef : forall A, rise 0 ((fun _ => Undef UBBounds) : prog A).
Proof. intros A s m M B. discriminate. Qed.
Lemma rise_refute : forall b c, rise 0 (refutep b c).
Proof. intros [] c; [apply rise_raise|apply rise_ret]. Qed.
Lemma rise_verdict : forall v, rise 0 (verdict v).
Proof. intros [c|]; [apply rise_refute|apply rise_ret]. Qed.
Lemma rise_say : forall l, rise 0 (say l).
Proof. intros l s m M B. cbn. now rewrite Z.add_0_r. Qed.
Lemma rise_deref : forall h, rise 0 (deref h).
Proof. intros h s m M B. unfold deref. destruct (nth_error (s_objs s) h) as [[o|]|]; try discriminate. now rewrite Z.add_0_r. Qed.

Lemma below_put : forall m s h x, below m s -> (forall o, x = Some o -> o_ref o <= m) -> below m (put s h x).
Proof.
  intros m s h x B H y o L. destruct (Nat.lt_ge_cases h (size s)) as [Lt|Ge].
  - rewrite look_put in L by auto. destruct (Nat.eq_dec y h); [|eauto]. destruct x; try discriminate. injection L as <-. auto.
  - enough (E : look (put s h x) y = look s y) by (rewrite E in L; eauto). unfold look, put. cbn [s_objs].
    rewrite set_nth_nth. destruct (Nat.eq_dec y h) as [->|]; auto.
    assert (E : nth_error (s_objs s) h = None) by (apply nth_error_None; exact Ge). now rewrite E.
Qed.

(** Programs that read an object, then write it. *)
Lemma rise_upd : forall A h n (f : obj -> prog A), 
  (forall o s m, 1 <= m -> below m s -> look s h = Some o ->
     match f o s with Done _ s' => below (m + n) s' | Fail _ s' => below (m + n) s' | Undef w => w = UBOverflow -> INT32_MAX < m + n end) ->
  rise n (bindp (deref h) f).
Proof.
  intros A h n f H s m M B. unfold bindp, deref. destruct (nth_error (s_objs s) h) as [[o|]|] eqn:E; try discriminate.
  apply H; auto. unfold look. now rewrite E.
Qed.
Lemma rise_set : forall h p, rise 0 (set_data h p).
Proof.
  intros h p. apply rise_upd. intros o s m M B L. cbn. rewrite Z.add_0_r. apply below_put; auto. intros o' [= <-]. cbn. eauto.
Qed.
Lemma rise_get : forall h, rise 0 (get_data h).
Proof. intros h. apply rise_bind0; [lia|apply rise_deref|intros; apply rise_ret]. Qed.
Lemma rise_check : forall x t, rise 0 (check_obj x t).
Proof.
  intros [h|] t; cbn [check_obj]; [|apply rise_raise]. apply rise_bind0; [lia|apply rise_deref|intros o].
  apply rise_bind0; [lia|apply rise_refute|intros _; apply rise_ret].
Qed.
Lemma rise_alloc : rise 0 alloc.
Proof. intros s m M B. unfold alloc. destruct (s_mem s) as [|[] ?]; now rewrite Z.add_0_r. Qed.
Lemma rise_new : forall t p, rise 0 (new t p).
Proof.
  intros t p s m M B. unfold new. fold (added s t p). rewrite Z.add_0_r. intros h o L. rewrite look_added in L.
  destruct (Nat.eq_dec h (size s)); [|eauto]. injection L as <-. exact M.
Qed.
Lemma rise_retain : forall x, rise 1 (retain x).
Proof.
  intros [h|]; cbn [retain]; [|eapply rise_le; [|apply rise_raise]; lia]. apply rise_upd. intros o s m M B L.
  unfold bindp, refutep. destruct (o_ref o <=? 0); [eapply below_le; [|exact B]; lia|]. cbn [ret].
  pose proof (B h o L) as Bh. destruct (Z.eqb_spec (o_ref o) INT32_MAX) as [E|E]; [intros _; lia|].
  cbv beta iota delta [store]. apply below_put; [eapply below_le; [|exact B]; lia|]. intros o' [= <-]. cbn. lia.
Qed.
Lemma rise_callback : forall x cb ud, rise 0 (set_destroy_callback x cb ud).
Proof.
  intros [h|] cb ud; cbn [set_destroy_callback]; [|apply rise_raise]. apply rise_bind0; [lia|apply rise_refute|intros _].
  apply rise_upd. intros o s m M B L. cbn. rewrite Z.add_0_r. apply below_put; auto. intros o' [= <-]. cbn. eauto.
Qed.

Lemma rise_release_n : forall n x, rise 0 (release_n n x).
Proof.
  induction n as [|n IH]; intros x; cbn [release_n]; [intros s m M B; discriminate|].
  destruct x as [h|]; [|apply rise_raise].
  assert (Rest : forall o, rise 0 (say (map (fun c => ECallback h (fst c) (snd c)) (rev (o_cbs o))) ;;;
            (match o_data o with
             | PVariable v => release_n n (Some v)
             | d =>
                 say (match user_del d with Some _ => [EUserDel h] | None => [] end) ;;;
                 (fix go (l : list handle) : prog unit :=
                    match l with
                    | [] => ret tt
                    | y :: l' => ignore (release_n n (Some y)) ;;; go l'
                    end) (released d) ;;;
                 (match user_del d with
                  | Some c => refutep (c <? 0) c
                  | None => ret tt
                  end)
             end) ;;;
            store h None ;;;
            say [EFree h])%prog).
  { intros o. apply rise_bind0; [lia|apply rise_say|intros _]. apply rise_bind0; [lia| |intros _].
    - assert (Go : forall d, rise 0 (say (match user_del d with Some _ => [EUserDel h] | None => [] end) ;;;
                 (fix go (l : list handle) : prog unit :=
                    match l with
                    | [] => ret tt
                    | y :: l' => ignore (release_n n (Some y)) ;;; go l'
                    end) (released d) ;;;
                 (match user_del d with
                  | Some c => refutep (c <? 0) c
                  | None => ret tt
                  end))%prog).
      { intros d. apply rise_bind0; [lia|apply rise_say|intros _]. apply rise_bind0; [lia| |intros _].
        - induction (released d) as [|y l IHl]; [apply rise_ret|]. apply rise_bind0; [lia| |intros _; exact IHl].
          apply rise_ignore. apply IH.
        - destruct (user_del d); [apply rise_refute|apply rise_ret]. }
      destruct (o_data o); first [apply IH|apply Go].
    - apply rise_bind0; [lia| |intros _; apply rise_say]. intros s m M B. cbn. rewrite Z.add_0_r. apply below_put; auto. discriminate. }
  apply rise_upd. intros o s m M B L. unfold bindp at 1, refutep. destruct (o_ref o <=? 0); [cbn; now rewrite Z.add_0_r|].
  cbn [ret]. unfold bindp at 1, store at 1.
  assert (B1 : below m (put s h (Some (with_ref o (o_ref o - 1))))).
  { apply below_put; auto. intros o' [= <-]. cbn. pose proof (B h o L). lia. }
  destruct (o_ref o - 1 =? 0); [|cbn; now rewrite Z.add_0_r]. apply (Rest o _ m M B1).
Qed.
Lemma rise_release : forall x, rise 0 (release x).
Proof. intros x s m M B. unfold release. apply (rise_release_n _ x s m M B). Qed.
Lemma rise_drop : forall h, rise 0 (drop h).
Proof. intros h. apply rise_ignore, rise_release. Qed.
Lemma rise_drops : forall l, rise 0 (drops l).
Proof. induction l as [|h l IH]; cbn [drops]; [apply rise_ret|]. apply rise_bind0; [lia|apply rise_drop|auto]. Qed.
Lemma rise_odrop : forall x, rise 0 (odrop x).
Proof. intros [h|]; [apply rise_drop|apply rise_ret]. Qed.
Lemma rise_plain : forall t, rise 0 (create_plain t).
Proof. intros t. apply rise_bind0; [lia|apply rise_alloc|intros _; apply rise_new]. Qed.
Lemma rise_num : forall h, rise 0 (num_parameters h).
Proof. intros h. apply rise_bind0; [lia|apply rise_get|intros d; apply rise_ret]. Qed.
Lemma rise_values : forall v n, rise 0 (check_values v n).
Proof. intros [|] n; apply rise_refute. Qed.
Lemma rise_validate : forall v, rise 0 (validate v).
Proof.
  intros [n|l]; [apply rise_ret|]. cbn [validate]. induction l as [|v l IH]; [apply rise_ret|].
  apply rise_bind0; [lia|apply rise_verdict|intros _; exact IH].
Qed.
Lemma rise_entries : forall m, rise 0 (map_entries m).
Proof. intros m. apply rise_bind0; [lia|apply rise_get|intros []; first [apply rise_ret|apply rise_undef]]. Qed.

Ltac prim :=
  first [apply rise_ret|apply rise_raise|apply rise_undef|apply rise_refute|apply rise_verdict|apply rise_get|apply rise_set
        |apply rise_check|apply rise_alloc|apply rise_new|apply rise_release|apply rise_drop|apply rise_drops|apply rise_odrop
        |apply rise_plain|apply rise_num|apply rise_values|apply rise_validate|apply rise_entries|apply rise_deref].
Ltac zero := repeat first [prim|apply rise_bind0; [lia| |intros]|apply rise_orelse0; [lia| |]].
(** One step of a program that takes [n] references, [n] a numeral. *)
Ltac rise_ :=
  lazymatch goal with
  | |- rise 0 _ => solve [zero]
  | |- rise _ (bindp ?p _) =>
      first [apply rise_bind0; [lia|solve [zero]|intros]
            |match goal with |- rise 3 _ => change 3 with (1 + 2) | |- rise 2 _ => change 2 with (1 + 1) | |- rise 1 _ => change 1 with (1 + 0) end;
             apply rise_bind1; [lia|rise1|intros]]
  | |- rise 1 _ => rise1
  end
with rise1 := first [apply rise_retain|apply rise_orelse0; [lia|rise1|solve [zero]]].

Lemma rise_each : forall l got, rise (Z.of_nat (length l)) (retain_each got l).
Proof.
  induction l as [|h l IH]; intros got; cbn [retain_each length]; [apply rise_ret|].
  rewrite Nat2Z.inj_succ, <- Z.add_1_l. apply rise_bind1; [lia|rise1|]. intros _. apply IH.
Qed.

Lemma rise_checks : forall l t, rise 0 (check_objs l t).
Proof. induction l as [|x l IH]; intros t; cbn [check_objs]; [apply rise_ret|]. apply rise_bind0; [lia|prim|intros h]. apply rise_bind0; [lia|apply IH|intros; prim]. Qed.
Lemma checks_length : forall l t s, match check_objs l t s with Done ds _ => length ds = length l | _ => True end.
Proof.
  induction l as [|x l IH]; intros t s; cbn [check_objs]; [reflexivity|]. unfold bindp at 1. destruct (check_obj x t s) as [h s1| |]; auto.
  unfold bindp. specialize (IH t s1). destruct (check_objs l t s1); auto. cbn [ret length]. now rewrite IH.
Qed.
Lemma rise_bindq : forall A B (Q : A -> Prop) (p : prog A) (f : A -> prog B) k, 0 <= k -> rise 0 p ->
  (forall s, match p s with Done a _ => Q a | _ => True end) -> (forall a, Q a -> rise k (f a)) -> rise k (bindp p f).
Proof.
  intros A B Q p f k K R G F s m M Bl. unfold bindp. specialize (R s m M Bl). specialize (G s). destruct (p s) as [a s1|c s1|w].
  - rewrite Z.add_0_r in R. exact (F a G s1 m M R).
  - eapply below_le; [|exact R]. lia.
  - intros E. specialize (R E). lia.
Qed.
Lemma rise_nodes0 : forall l, rise 0 (check_nodes l).
Proof.
  induction l as [|n l IH]; cbn [check_nodes]; [apply rise_ret|]. apply rise_bind0; [lia| |intros _; apply IH].
  destruct n as [[h|]| |]; zero.
Qed.
Lemma rise_variable : forall x, rise 1 (create_variable x).
Proof. intros x. unfold create_variable. do 3 rise_. zero. Qed.
Lemma rise_node : forall n, rise 1 (make_node n).
Proof.
  intros [[h|]| |]; cbn [make_node]; try (apply rise_le with (n := 0); [|zero]; lia).
  apply rise_bind0; [lia|prim|intros o]. destruct (o_type o =? T_EXPRESSION); [rise_; zero|apply rise_variable].
Qed.
Lemma rise_nodes : forall l got, rise (Z.of_nat (length l)) (make_nodes got l).
Proof.
  induction l as [|n l IH]; intros got; cbn [make_nodes length]; [apply rise_ret|].
  rewrite Nat2Z.inj_succ, <- Z.add_1_l. apply rise_bind1; [lia|apply rise_orelse0; [lia|apply rise_node|prim]|]. intros h. apply IH.
Qed.
Lemma rise_end : forall A B (p : prog A) (f : A -> prog B) k, 0 <= k -> rise k p -> (forall a, rise 0 (f a)) -> rise k (bindp p f).
Proof. intros. replace k with (k + 0) by lia. apply rise_bind; auto; lia. Qed.
Lemma rise_configuration : forall x v, rise 1 (create_configuration x v).
Proof. intros x v. unfold create_configuration. do 5 rise_. zero. Qed.
Lemma rise_default : forall x v, rise 1 (get_default_configuration x v).
Proof.
  intros x v. unfold get_default_configuration. rise_. apply rise_end; [lia|apply rise_configuration|]. intros; zero.
Qed.
Lemma rise_sample_loop : forall n l, rise 0 (sample_loop n l).
Proof. induction n as [|n IH]; intros [|[] l]; cbn [sample_loop]; try prim. apply IH. Qed.

Lemma rise_samples_loop : forall cs n want cur arr l,
  rise (Z.of_nat (want - length arr) - (match cur with Some _ => if (length arr <? want)%nat then 1 else 0 | None => 0 end))
       (samples_loop cs n want cur arr l).
Proof.
  induction n as [|n IH]; intros want cur arr l; cbn [samples_loop].
  - destruct (Nat.ltb_spec (length arr) want); (eapply rise_le; [|prim]); destruct cur; lia.
  - destruct (Nat.ltb_spec (length arr) want) as [L|L]; [|eapply rise_le; [|prim]; destruct cur; lia].
    set (k := Z.of_nat (want - length arr) - 1).
    assert (Rest : forall config, rise k (match l with
            | TMissed :: l' => samples_loop cs n want (Some config) arr l'
            | TError c :: _ => drop config ;;; ret (c, arr)
            | _ => samples_loop cs n want None (arr ++ [config]) (tl l)
            end)).
    { intros config. destruct l as [|[] l'].
      - eapply rise_le; [|apply IH]. rewrite app_length. unfold k; cbn [length]. lia.
      - eapply rise_le; [|apply IH]. rewrite app_length. unfold k; cbn [length]. lia.
      - eapply rise_le; [|apply IH]. unfold k. destruct (Nat.ltb_spec (length arr) want); lia.
      - apply rise_le with (n := 0); [|zero]. unfold k. lia. }
    intros s m M B.
    assert (C : match (match cur with Some c => Done c s | None => create_configuration (Some cs) (VNull 0) s end) with
                | Done _ s1 => below (m + (match cur with Some _ => 0 | None => 1 end)) s1
                | Fail _ s1 => below (m + (match cur with Some _ => 0 | None => 1 end)) s1
                | Undef w => w = UBOverflow -> INT32_MAX < m + (match cur with Some _ => 0 | None => 1 end)
                end).
    { destruct cur as [c|]; [now rewrite Z.add_0_r|]. apply (rise_configuration (Some cs) (VNull 0) s m M B). }
    destruct (match cur with Some c => Done c s | None => create_configuration (Some cs) (VNull 0) s end) as [config s1|c s1|w].
    + assert (M1 : 1 <= m + match cur with Some _ => 0 | None => 1 end) by (destruct cur; lia).
      specialize (Rest config s1 _ M1 C).
      replace (m + (Z.of_nat (want - length arr) - match cur with Some _ => 1 | None => 0 end))
        with (m + (match cur with Some _ => 0 | None => 1 end) + k) by (unfold k; destruct cur; lia).
      destruct l as [|[] l']; exact Rest.
    + eapply below_le; [|exact C]. destruct cur; lia.
    + intros E. specialize (C E). destruct cur; lia.
Qed.

Lemma rise_default_wrappers : forall idx added, rise 0 (default_wrappers added idx).
Proof.
  induction idx as [|i idx IH]; intros added; cbn [default_wrappers]; [prim|].
  apply rise_bind0; [lia|prim|intros _]. apply rise_bind0; [lia|zero|intros d]. apply rise_bind0; [lia|apply IH|intros; prim].
Qed.
Lemma rise_delete : forall l cs, rise 0 (delete_wrappers cs l).
Proof.
  induction l as [|w l IH]; intros cs; cbn [delete_wrappers]; [prim|].
  apply rise_bind0; [lia|prim|intros []]; try prim. apply rise_bind0; [lia|prim|intros _]. apply rise_bind0; [lia|prim|intros _]. apply IH.
Qed.
Lemma rise_tell : forall l t tun, rise (Z.of_nat (length l)) (tell_loop t tun l).
Proof.
  induction l as [|[x []] l IH]; intros t tun; cbn [tell_loop length]; [prim| |];
    rewrite Nat2Z.inj_succ, <- Z.add_1_l; (apply rise_bind0; [lia|prim|intros e]).
  - apply rise_bind1; [lia| |intros _; apply IH]. apply rise_end; [lia|apply rise_ignore, rise_retain|intros _].
    apply rise_bind0; [lia|prim|intros d]. destruct (remember d e); prim.
  - eapply rise_le; [|apply rise_bind0; [|prim|intros _; apply IH]]; lia.
Qed.
Lemma rise_hold : forall d, rise 1 (hold d).
Proof. intros [x|]; cbn [hold]; [rise_; prim|eapply rise_le; [|prim]; lia]. Qed.
Lemma rise_remove : forall m e, rise 0 (map_remove m e).
Proof. intros. unfold map_remove. zero. Qed.

Lemma rise_give : forall p n, 0 <= n -> rise n p -> rise n (give p).
Proof. intros p n N R. apply rise_end; auto. intros; prim. Qed.
Lemma rise_act : forall p n, 0 <= n -> rise n p -> rise n (act p).
Proof. intros p n N R. apply rise_end; auto. intros; prim. Qed.

Lemma call_rise : forall o, rise (takes o) (call o).
Proof.
  destruct o; cbn [call takes]; try (apply rise_give; [lia|]); try (apply rise_act; [lia|]);
    unfold create_map, create_context, create_configuration_space, create_features, create_evaluation, create_tree_evaluation,
      create_features_evaluation, create_tree_configuration, create_random_tuner, create_random_tree_tuner, create_random_features_tuner,
      create_user_tuner, create_user_tree_tuner, create_user_features_tuner, create_tree, create_static_tree_space, create_dynamic_tree_space;
    try solve [repeat rise_]; try solve [repeat rise_; zero].
  - apply rise_callback.
  - unfold create_multivariate. rise_. apply rise_bindq with (Q := fun ds => length ds = length l); [lia|apply rise_checks|intros; apply checks_length|intros ds E].
    rise_. apply rise_end; [lia|rewrite <- E; apply rise_each|intros; prim].
  - unfold create_mixture. rise_. apply rise_bindq with (Q := fun ds => length ds = length l); [lia|apply rise_checks|intros; apply checks_length|intros ds E].
    do 4 rise_. apply rise_end; [lia|rewrite <- E; apply rise_each|intros; prim].
  - apply rise_variable.
  - unfold create_expression. rise_. apply rise_bind0; [lia|apply rise_nodes0|intros _]. rise_.
    apply rise_end; [lia|apply rise_nodes|intros; prim].
  - apply rise_configuration.
  - unfold space_set_rng. do 2 rise_. change 1 with (1 + 0). apply rise_bind1; [lia|rise1|intros _]. apply rise_bind0; [lia|prim|intros []; zero].
  - unfold tree_space_set_rng. do 2 rise_. change 1 with (1 + 0). apply rise_bind1; [lia|rise1|intros _]. apply rise_bind0; [lia|prim|intros []; zero].
  - unfold space_add_parameter. do 3 rise_. change 2 with (1 + 1). apply rise_bind1; [lia|rise1|intros _].
    apply rise_end; [lia| |intros dist].
    + destruct d as [d|]; [|apply rise_le with (n := 0); [|zero]; lia]. rise_. rise_. rise_. prim.
    + do 2 (apply rise_bind0; [lia|zero|intros _]). apply rise_bind0; [lia|prim|intros []; prim].
  - unfold context_add_parameter. do 3 rise_. change 1 with (1 + 0). apply rise_bind1; [lia|rise1|intros _].
    apply rise_bind0; [lia|zero|intros _]. apply rise_bind0; [lia|prim|intros []; prim].
  - unfold add_objective. do 3 rise_. change 1 with (1 + 0). apply rise_bind1; [lia|rise1|intros _].
    apply rise_bind0; [lia|prim|intros []; prim].
  - unfold set_condition. do 2 rise_. apply rise_bind0; [lia|prim|intros []]; try (eapply rise_le; [|prim]; lia).
    destruct (nth_error params i) as [[par [w|]]|]; try (eapply rise_le; [|prim]; lia).
    change 1 with (1 + 0). apply rise_bind1; [lia|rise1|intros _]. zero.
  - unfold add_forbidden_clause. do 3 rise_. change 2 with (1 + 1). apply rise_bind1; [lia|apply rise_default|intros config].
    apply rise_end; [lia| |intros _].
    + apply rise_orelse0; [lia| |prim]. rise_. rise1.
    + apply rise_bind0; [lia|prim|intros []; zero].
  - apply rise_default.
  - unfold space_sample. rise_. apply rise_end; [lia|apply rise_configuration|intros config].
    apply rise_bind0; [lia| |intros; prim]. apply rise_orelse0; [lia|apply rise_sample_loop|prim].
  - unfold space_samples. apply rise_bind0; [lia|prim|intros cs]. eapply rise_le; [|apply rise_samples_loop]. cbn [length]. lia.
  - unfold set_distribution. do 2 rise_. apply rise_bind0; [lia|prim|intros []]; try (eapply rise_le; [|prim]; lia).
    do 2 rise_. destruct (to_delete dists idx []) as [del|]; [|eapply rise_le; [|prim]; lia]. rise_.
    change 1 with (1 + 0). apply rise_bind1; [lia|rise1|intros _]. apply rise_bind0; [lia|apply rise_default_wrappers|intros more].
    apply rise_bind0; [lia|apply rise_delete|intros _]. apply rise_bind0; [lia|prim|intros []; prim].
  - unfold tree_set_child. do 2 rise_. apply rise_bind0; [lia|prim|intros []]; try (eapply rise_le; [|prim]; lia).
    destruct (nth_error children i) as [[w|]|]; try (eapply rise_le; [|prim]; lia). rise_.
    change 1 with (1 + 0). apply rise_bind1; [lia|rise1|intros _]. zero.
  - unfold tuner_tell. apply rise_bind0; [lia|prim|intros tun]. apply rise_bind0; [lia|prim|intros d].
    destruct (user_del d); [eapply rise_le; [|prim]; lia|apply rise_tell].
  - unfold map_set. do 2 rise_. cbv zeta.
    assert (R : forall old, rise 2 (ko <~ hold kd ;; vo <~ orelse (hold vd) (odrop ko) ;; orelse alloc (odrop vo ;;; odrop ko) ;;;
              (match old with Some e => map_remove a e | None => ret tt end) ;;; l2 <~ map_entries a ;; set_data a (PMap (l2 ++ [mkEntry k ko vo])))).
    { intros old. change 2 with (1 + 1). apply rise_bind1; [lia|apply rise_hold|intros ko].
      change 1 with (1 + 0). apply rise_bind1; [lia|apply rise_orelse0; [lia|apply rise_hold|prim]|intros vo].
      apply rise_bind0; [lia|zero|intros _]. apply rise_bind0; [lia| |intros _; zero]. destruct old; [apply rise_remove|prim]. }
    destruct (find _ _) as [e|]; [destruct same; [eapply rise_le; [|prim]; lia|apply (R (Some e))]|apply (R None)].
  - unfold map_del. apply rise_bind0; [lia|prim|intros m]. apply rise_bind0; [lia|prim|intros l].
    destruct (find _ _); [apply rise_remove|prim].
Qed.
