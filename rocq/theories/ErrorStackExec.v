(** What the functions of the library leave behind. *)
From Coq Require Import ZArith List Bool Lia.
From Verif Require Import Base ErrorStackModel ErrorStackSpec ErrorStackProofs ErrorStackHistory.
Import ListNotations.
Open Scope Z_scope.

Lemma next : forall n l s o, history n l s -> permitted l n o ->
  exists code h v s1, step o s = Ok (code, h, v, s1) /\ answers l s o code h v /\
    history n (mkEvent o code h :: l) s1 /\ (s_mem s = [] -> s_mem s1 = []).
Proof.
  intros n l s o H P. destruct (all_did n l s o (history_inv _ _ _ H) P) as (code & h & v & s1 & E & A & I & M).
  exists code, h, v, s1. split; auto. split; auto. split; auto. econstructor; eauto.
Qed.

Lemma untouched_trans : forall t l1 l2 l3, untouched t l1 l2 -> untouched t l2 l3 -> untouched t l1 l3.
Proof.
  intros t l1 l2 l3 A B h N. destruct (A h N) as (A1 & A2 & A3). destruct (B h) as (B1 & B2 & B3); [congruence|].
  split; [congruence|]. split; [congruence|]. intros C. destruct (A3 C) as (C1 & C2). destruct (B3 C1) as (D1 & D2). split; [auto|congruence].
Qed.

Lemma thread_pushed : forall n l0 l s t c m p e, history n l s -> (t < n)%nat -> s_mem s = [] -> holds l0 l t c m p ->
  exists s1, thread_push s t e = Ok (CCS_RESULT_SUCCESS, s1) /\ s_mem s1 = [] /\
    history n (mkEvent (OThreadPush t e) CCS_RESULT_SUCCESS None :: l) s1 /\
    holds l0 (mkEvent (OThreadPush t e) CCS_RESULT_SUCCESS None :: l) t c m (p ++ [e]) /\
    (untouched t l0 l -> untouched t l0 (mkEvent (OThreadPush t e) CCS_RESULT_SUCCESS None :: l)).
Proof.
  intros n l0 l s t c m p e H L M (h & C & Mk & El & Re & Sp & Nw).
  assert (P : permitted l n (OThreadPush t e)) by (split; auto; rewrite C; exact Sp).
  destruct (next _ _ _ _ H P) as (code & h' & v & s1 & E & A & H1 & M1). cbn [answers target] in A. destruct A as (-> & -> & A).
  rewrite C in A. cbn [is_stack] in A. rewrite Mk in A. destruct A as [-> |(_ & X)]; [|tauto].
  cbn [step] in E. destruct (thread_push s t e) as [[a b]| |]; try discriminate. cbn [bind fst snd] in E. injection E as -> ->.
  exists s1. split; auto. split; auto. split; auto. split.
  - exists h. cbn [current made elements references spoiled ev_op ev_code ev_made target pushed same fine one andb].
    rewrite C. cbn [same]. rewrite Nat.eqb_refl. cbn [andb]. rewrite El, Sp. repeat split; auto; lia.
  - intros U k N. destruct (U k N) as (U1 & U2 & U3). cbn [current made elements references ev_op ev_made target same one]. rewrite C. cbn [same].
    destruct (Nat.eqb_spec h k) as [<- |_]; [congruence|]. cbn [andb]. rewrite app_nil_r. split; auto. split; auto. intros Ck.
    destruct (U3 Ck) as (V1 & V2). rewrite C in V1. split; auto. lia.
Qed.
Lemma raised : forall n l s t c m e, history n l s -> (t < n)%nat -> s_mem s = [] ->
  exists s1 l', create_error s t c m e = Ok s1 /\ own t l' /\ history n (l' ++ l) s1 /\ s_mem s1 = [] /\ holds l (l' ++ l) t c m [e] /\
    untouched t l (l' ++ l).
Proof.
  intros n l s t c m e H L M. assert (P : permitted l n (OThreadError t c (Some m))) by exact L.
  destruct (next _ _ _ _ H P) as (code & h' & v & s1 & E & A & H1 & M1). cbn [answers] in A.
  destruct A as (-> & [-> |(_ & X)] & A & _); [|tauto]. destruct (A eq_refl) as (h & -> & Mk & Re & El & Sp).
  set (ev := mkEvent (OThreadError t c (Some m)) CCS_RESULT_SUCCESS (Some h)) in *.
  assert (Hd : holds l (ev :: l) t c m []).
  { exists h. cbn [current made elements references spoiled ev ev_op ev_code ev_made target pushed same fine one andb].
    rewrite !Nat.eqb_refl. cbn [one]. rewrite Mk, Re, El, Sp. cbn [orb app]. split; auto. split; auto. split; auto. split; auto.
    destruct (current l t) as [k|] eqn:C; cbn [same one]; [|lia]. destruct (Nat.eqb_spec k h) as [-> |]; cbn [one]; [|lia].
    destruct (i_stacks _ _ _ (history_inv _ _ _ H) t h C) as (c' & m' & X). cbn [seen w_made] in X. congruence. }
  destruct (thread_pushed n l _ s1 t c m [] e H1 L (M1 M) Hd) as (s2 & E2 & M2 & H2 & Hd2 & U2).
  exists s2, [mkEvent (OThreadPush t e) CCS_RESULT_SUCCESS None; ev]. split.
  - unfold create_error. cbn [step] in E. destruct (create_thread_error s t c (Some m)) as [[[a b] d]| |]; try discriminate.
    cbn [bind snd] in *. injection E as -> -> ->. rewrite E2. reflexivity.
  - split; [intros x [<- |[<- |[]]]; reflexivity|]. split; auto. split; auto. split; auto. apply U2. intros k N.
    cbn [current made elements references ev ev_op ev_made target same one]. rewrite Nat.eqb_refl, app_nil_r.
    destruct (Nat.eqb_spec h k) as [<- |Nk]; [congruence|]. split; auto. split; auto. intros Ck. split; [congruence|].
    destruct (current l t) as [j|]; cbn [same one]; [|lia]. destruct (Nat.eqb_spec j k) as [<- |]; [congruence|cbn [one]; lia].
Qed.

Lemma quiet_keeps : forall t a s, quiet a -> exists c, exec t a s = Ok (c, s) /\ returns a c /\ 0 <= c.
Proof.
  intros t a. induction a as [c|c m e|c m e cl _|e sub IH1 rest IH2|e sub IH1 cl _ rest IH2|sub IH1 rest IH2]; intros s Q; cbn [quiet] in Q; try easy.
  - exists c. repeat split; auto. constructor.
  - destruct Q as (Q1 & Q2). destruct (IH1 s Q1) as (d & E & R & P). destruct (IH2 s Q2) as (c & E2 & R2 & P2). exists c. cbn [exec]. rewrite E.
    cbn [bind fst snd]. unfold CCS_RESULT_SUCCESS. destruct (Z.ltb_spec d 0); [lia|]. repeat split; auto. eapply r_pass; eauto.
  - destruct Q as (Q1 & Q2). destruct (IH1 s Q1) as (d & E & R & P). destruct (IH2 s Q2) as (c & E2 & R2 & P2). exists c. cbn [exec]. rewrite E.
    cbn [bind fst snd]. unfold CCS_RESULT_SUCCESS. destruct (Z.ltb_spec d 0); [lia|]. repeat split; auto. eapply r_pass_goto; eauto.
  - destruct Q as (Q1 & Q2). destruct (IH1 s Q1) as (d & E & R & P). destruct (IH2 s Q2) as (c & E2 & R2 & P2). exists c. cbn [exec]. rewrite E.
    cbn [bind fst snd]. repeat split; auto. eapply r_ignore; eauto.
Qed.
Lemma success_keeps : forall t a s c s1, diligent a -> heedful a -> exec t a s = Ok (c, s1) -> 0 <= c -> s1 = s.
Proof.
  intros t a. induction a as [c0|c0 m e|c0 m e cl _|e sub IH1 rest IH2|e sub IH1 cl _ rest IH2|sub IH1 rest IH2]; intros s c s1 D Hd E P;
    cbn [diligent heedful exec] in *.
  - congruence.
  - destruct (create_error s t c0 m e) as [x| |]; try discriminate. injection E as <- _. lia.
  - destruct (create_error s t c0 m e) as [x| |]; try discriminate. cbn [bind] in E. destruct (exec t cl x) as [y| |]; try discriminate. injection E as <- _. lia.
  - destruct (exec t sub s) as [[d s0]| |] eqn:E1; try discriminate. cbn [bind fst snd] in E. unfold CCS_RESULT_SUCCESS in E. destruct (Z.ltb_spec d 0).
    + destruct (thread_push s0 t e) as [q| |]; try discriminate. injection E as <- _. lia.
    + assert (s0 = s) by (eapply IH1; eauto; tauto). subst s0. eapply IH2; eauto; tauto.
  - destruct (exec t sub s) as [[d s0]| |] eqn:E1; try discriminate. cbn [bind fst snd] in E. unfold CCS_RESULT_SUCCESS in E. destruct (Z.ltb_spec d 0).
    + destruct (thread_push s0 t e) as [q| |]; try discriminate. cbn [bind] in E. destruct (exec t cl (snd q)) as [y| |]; try discriminate. injection E as <- _. lia.
    + assert (s0 = s) by (eapply IH1; eauto; tauto). subst s0. eapply IH2; eauto; tauto.
  - destruct (quiet_keeps t sub s) as (d & E1 & _); [tauto|]. rewrite E1 in E. cbn [bind snd] in E. eapply IH2; eauto; tauto.
Qed.

Definition ran (n : nat) (l : trace) (t : thread) (a : lib) (s : st) : Prop :=
  exists c s1 l', exec t a s = Ok (c, s1) /\ returns a c /\ own t l' /\ history n (l' ++ l) s1 /\ s_mem s1 = [] /\ untouched t l (l' ++ l) /\
    (c < 0 -> exists m p, fails a c m p /\ holds l (l' ++ l) t c m p).

Lemma own_app : forall t l l', own t l -> own t l' -> own t (l ++ l').
Proof. intros t l l' A B e I. apply in_app_or in I as [I|I]; [apply A, I|apply B, I]. Qed.
Lemma made_own : forall t l' l h, own t l' -> made (l' ++ l) h = None -> made l h = None.
Proof.
  intros t l' l h O E. induction l' as [|e r IH]; auto. apply IH; [intros x I; apply O; now right|]. cbn [app made] in E.
  destruct (same (ev_made e) h); auto. destruct (ev_op e); discriminate.
Qed.
Lemma holds_weaken : forall t l' l l2 c m p, own t l' -> holds (l' ++ l) l2 t c m p -> holds l l2 t c m p.
Proof. intros t l' l l2 c m p O (h & A & B & C & D & E & F). exists h. repeat split; auto. eapply made_own; eauto. Qed.

Lemma then_runs : forall n l l1 t rest s1 c0 s2, own t l1 -> ran n (l1 ++ l) t rest s1 -> exec t rest s1 = Ok (c0, s2) ->
  exists l', own t l' /\ history n (l' ++ l) s2 /\ s_mem s2 = [] /\ returns rest c0 /\ untouched t (l1 ++ l) (l' ++ l) /\
    (c0 < 0 -> exists m p, fails rest c0 m p /\ holds l (l' ++ l) t c0 m p).
Proof.
  intros n l l1 t rest s1 c0 s2 O (c & s3 & l' & E & R & O' & H & M & U & F) X. rewrite X in E. injection E as <- <-.
  exists (l' ++ l1). rewrite <- app_assoc. split; [now apply own_app|]. split; auto. split; auto. split; auto. split; auto.
  intros N. destruct (F N) as (m & p & A & B). exists m, p. split; auto. exact (holds_weaken t l1 l _ c0 m p O B).
Qed.
Lemma diligent_runs : forall n t a, (t < n)%nat -> diligent a -> forall l s, history n l s -> s_mem s = [] -> ran n l t a s.
Proof.
  intros n t a L. induction a as [c|c m e|c m e cl _|e sub IH1 rest IH2|e sub IH1 cl _ rest IH2|sub IH1 rest IH2]; intros D l s H M; cbn [diligent] in D.
  - exists c, s, []. split; [reflexivity|]. split; [constructor|]. split; [intros ? []|]. split; auto. split; auto. split; [intros h N; auto|lia].
  - destruct (raised n l s t c m e H L M) as (s1 & l' & E & O & H1 & M1 & Hd & U1). exists c, s1, l'. cbn [exec]. rewrite E. split; [reflexivity|]. split; [constructor|]. split; auto. split; auto. split; auto. split; auto.
    intros _. exists m, [e]. split; auto. constructor.
  - destruct (raised n l s t c m e H L M) as (s1 & l' & E & O & H1 & M1 & Hd & U1). exists c, s1, l'. cbn [exec]. rewrite E. cbn [bind].
    destruct (quiet_keeps t cl s1) as (d & E2 & R & _); [tauto|]. rewrite E2. split; [reflexivity|]. split; [econstructor; eauto|]. split; auto. split; auto. split; auto. split; auto.
    intros _. exists m, [e]. split; auto. constructor.
  - destruct (IH1 (proj1 D) l s H M) as (d & s1 & l1 & E & R & O & H1 & M1 & U1 & F). destruct (Z.ltb_spec d 0) as [N|N].
    + destruct (F N) as (m & p & Fl & Hd). destruct (thread_pushed n l _ s1 t d m p e H1 L M1 Hd) as (s2 & E2 & M2 & H2 & Hd2 & U2).
      exists d, s2, (mkEvent (OThreadPush t e) CCS_RESULT_SUCCESS None :: l1). cbn [exec]. rewrite E. cbn [bind fst snd].
      replace (d <? CCS_RESULT_SUCCESS) with true by (symmetry; now apply Z.ltb_lt). rewrite E2. split; [reflexivity|]. split; [now apply r_fail|].
      split; [intros x [<- |I]; [reflexivity|exact (O x I)]|]. split; auto. split; auto. split; [auto|]. intros _. exists m, (p ++ [e]). split; auto. now apply f_sub.
    + pose proof (IH2 (proj2 D) _ _ H1 M1) as Rn. destruct (IH2 (proj2 D) _ _ H1 M1) as (c & s2 & l2 & E2 & _).
      destruct (then_runs n l l1 t rest s1 c s2 O Rn E2) as (l' & O' & H2 & M2 & R2 & U2 & F2).
      exists c, s2, l'. cbn [exec]. rewrite E. cbn [bind fst snd]. replace (d <? CCS_RESULT_SUCCESS) with false by (symmetry; apply Z.ltb_ge; auto).
      split; auto. split; [eapply r_pass; eauto|]. split; auto. split; auto. split; auto. split; [eapply untouched_trans; eauto|]. intros X. destruct (F2 X) as (m & p & A & B). exists m, p. split; auto.
      eapply f_rest; eauto.
  - destruct (IH1 (proj1 D) l s H M) as (d & s1 & l1 & E & R & O & H1 & M1 & U1 & F). destruct (Z.ltb_spec d 0) as [N|N].
    + destruct (F N) as (m & p & Fl & Hd). destruct (thread_pushed n l _ s1 t d m p e H1 L M1 Hd) as (s2 & E2 & M2 & H2 & Hd2 & U2).
      destruct (quiet_keeps t cl s2) as (q & E3 & R3 & _); [tauto|].
      exists d, s2, (mkEvent (OThreadPush t e) CCS_RESULT_SUCCESS None :: l1). cbn [exec]. rewrite E. cbn [bind fst snd].
      replace (d <? CCS_RESULT_SUCCESS) with true by (symmetry; now apply Z.ltb_lt). rewrite E2. cbn [bind snd]. rewrite E3. split; [reflexivity|].
      split; [eapply r_fail_goto; eauto|].
      split; [intros x [<- |I]; [reflexivity|exact (O x I)]|]. split; auto. split; auto. split; [auto|]. intros _. exists m, (p ++ [e]). split; auto. now apply f_sub_goto.
    + pose proof (IH2 (proj2 (proj2 D)) _ _ H1 M1) as Rn. destruct (IH2 (proj2 (proj2 D)) _ _ H1 M1) as (c & s2 & l2 & E2 & _).
      destruct (then_runs n l l1 t rest s1 c s2 O Rn E2) as (l' & O' & H2 & M2 & R2 & U2 & F2).
      exists c, s2, l'. cbn [exec]. rewrite E. cbn [bind fst snd]. replace (d <? CCS_RESULT_SUCCESS) with false by (symmetry; apply Z.ltb_ge; auto).
      split; auto. split; [eapply r_pass_goto; eauto|]. split; auto. split; auto. split; auto. split; [eapply untouched_trans; eauto|]. intros X. destruct (F2 X) as (m & p & A & B). exists m, p. split; auto.
      eapply f_rest_goto; eauto.
  - destruct (IH1 (proj1 D) l s H M) as (d & s1 & l1 & E & R & O & H1 & M1 & U1 & F).
    pose proof (IH2 (proj2 D) _ _ H1 M1) as Rn. destruct (IH2 (proj2 D) _ _ H1 M1) as (c & s2 & l2 & E2 & _).
    destruct (then_runs n l l1 t rest s1 c s2 O Rn E2) as (l' & O' & H2 & M2 & R2 & U2 & F2).
    exists c, s2, l'. cbn [exec]. rewrite E. cbn [bind fst snd].
    split; auto. split; [eapply r_ignore; eauto|]. split; auto. split; auto. split; auto. split; [eapply untouched_trans; eauto|]. intros X. destruct (F2 X) as (m & p & A & B). exists m, p. split; auto.
    eapply f_ignore; eauto.
Qed.

(** Other threads. *)
Lemma own_current : forall t l' l t', own t l' -> t' <> t -> current (l' ++ l) t' = current l t'.
Proof.
  intros t l' l t' O N. induction l' as [|e r IH]; auto. assert (Oe := O e (or_introl eq_refl)). cbn [app current].
  rewrite IH by (intros x I; apply O; now right). destruct (ev_op e); try easy. subst. destruct (Nat.eqb_spec t t'); congruence.
Qed.
Lemma step_defined : forall n l s o, history n l s -> permitted l n o -> exists code h v s1, step o s = Ok (code, h, v, s1).
Proof. intros n l s o H P. destruct (next n l s o H P) as (c & h & v & s1 & E & _). eauto. Qed.
Lemma step_answers : forall n l s o code h v s1, history n l s -> permitted l n o -> step o s = Ok (code, h, v, s1) ->
  answers l s o code h v.
Proof. intros n l s o code h v s1 H P E. destruct (next n l s o H P) as (c & h' & v' & s1' & E' & A & _). rewrite E in E'. injection E' as <- <- <- <-. exact A. Qed.
Lemma history_objects : forall n l s h, history n l s ->
  0 <= references l h /\ (0 < references l h -> exists b, deref s h = Ok b /\ b_ref b = references l h /\
                            match b_stack b with
                            | Some k => made l h = Some (Some (k_code k, k_msg k)) /\ k_elems k = elements l h
                            | None => is_stack l (Some h) = false
                            end) /\
  (references l h = 0 -> deref s h = UB UBBounds).
Proof.
  intros n l s h H. pose proof (history_inv _ _ _ H) as I. destruct (r_obj _ _ _ (i_rep _ _ _ I) h) as [(R & K)|(R & b & K & M)]; cbn [seen w_refs] in *.
  - split; [lia|]. split; [lia|]. intros _. unfold deref. unfold look in K. destruct (nth_error (s_objs s) h) as [[?|]|]; easy.
  - split; [lia|]. split; [|lia]. intros _. exists (mkObject (references l h) b). split; [exact (look_deref _ _ _ K)|]. split; auto.
    unfold matches in M. cbn [seen w_made w_elems] in M. cbn [b_stack is_stack]. destruct (made l h) as [[[c m]|]|].
    + destruct M as (cap & room & -> & _). cbn. auto.
    + now subst.
    + now subst.
Qed.
Lemma history_current : forall n l s t, history n l s -> get_current s t = current l t.
Proof. intros n l s t H. exact (r_cur _ _ _ (i_rep _ _ _ (history_inv _ _ _ H)) t). Qed.
Lemma history_errors : forall n l s t h, history n l s -> current l t = Some h -> is_stack l (Some h) = true /\ 0 < references l h.
Proof.
  intros n l s t h H C. pose proof (history_inv _ _ _ H) as I. destruct (i_stacks _ _ _ I t h C) as (c & m & E). cbn [seen w_made] in E.
  split; [cbn [is_stack]; now rewrite E|]. apply (inv_cur n s (seen l) t h I C).
Qed.
Lemma history_owned : forall n l s h, history n l s -> by_threads l n h <= references l h.
Proof. intros n l s h H. exact (i_threads _ _ _ (history_inv _ _ _ H) h). Qed.
Lemma isolated : forall n l s o code h v s1 t, history n l s -> permitted l n o -> step o s = Ok (code, h, v, s1) ->
  about o <> Some t -> get_current s1 t = get_current s t.
Proof.
  intros n l s o code h v s1 t H P E A. rewrite (history_current _ _ _ t H).
  rewrite (history_current n (mkEvent o code h :: l) s1 t) by (econstructor; eauto). cbn [current ev_op].
  destruct o; cbn [about] in A; auto; destruct (Nat.eqb_spec t0 t); try congruence; auto.
Qed.
Lemma runs : forall n l s t a, history n l s -> s_mem s = [] -> (t < n)%nat -> diligent a ->
  exists c s1 l', exec t a s = Ok (c, s1) /\ returns a c /\ own t l' /\ history n (l' ++ l) s1 /\ untouched t l (l' ++ l) /\
    (forall t', t' <> t -> get_current s1 t' = get_current s t') /\
    (c < 0 -> exists m p, fails a c m p /\ holds l (l' ++ l) t c m p).
Proof.
  intros n l s t a H M L D. destruct (diligent_runs n t a L D l s H M) as (c & s1 & l' & E & R & O & H1 & _ & U & F).
  exists c, s1, l'. split; auto. split; auto. split; auto. split; auto. split; auto. split; auto. intros t' N.
  rewrite (history_current _ _ _ t' H), (history_current _ _ _ t' H1). eapply own_current; eauto.
Qed.
