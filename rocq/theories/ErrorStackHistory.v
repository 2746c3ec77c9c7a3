(** Every call of a correct application does what the trace says. *)
From Coq Require Import ZArith List Bool Lia.
From Verif Require Import Base ErrorStackModel ErrorStackSpec ErrorStackProofs.
Import ListNotations.
Open Scope Z_scope.

Definition did (n : nat) (l : trace) (s : st) (o : op) : Prop :=
  exists code h v s1, step o s = Ok (code, h, v, s1) /\ answers l s o code h v /\
    inv n s1 (seen (mkEvent o code h :: l)) /\ (s_mem s = [] -> s_mem s1 = []).

Ltac views := repeat split; intros; cbn [w_cur w_refs w_made w_elems w_spoiled seen with_cur with_new drop_ref dropped with_push with_spoil
    current references made elements spoiled ev_op ev_code ev_made same target pushed fine one andb orb] in *;
  unfold plus in *; rewrite ?app_nil_r, ?orb_false_r, ?Z.add_0_r, ?Z.mul_0_r; auto; try lia.

Lemma inv_same : forall n s w w', weq w w' -> inv n s w -> inv n s w'.
Proof. exact inv_ext. Qed.

Lemma get_did : forall n l s t, inv n s (seen l) -> (t < n)%nat -> did n l s (OGet t).
Proof.
  intros n l s t I L. do 4 eexists. split; [reflexivity|]. split; [|split; auto].
  - cbn. rewrite (r_cur _ _ _ (i_rep _ _ _ I)). auto.
  - apply inv_ext with (w := with_cur (seen l) t None); [views|]. constructor.
    + apply rep_current; auto. apply I.
    + intros h. rewrite hold_upd by auto. pose proof (i_threads _ _ _ I h). pose proof (one_nonneg (same (w_cur (seen l) t) h)). cbn [same one]. 
      change (w_refs (with_cur (seen l) t None) h) with (w_refs (seen l) h). lia.
    + intros t' h C. cbn in C. destruct (Nat.eqb t t'); [discriminate|]. now apply (i_stacks _ _ _ I t' h).
Qed.
Lemma clear_ok : forall n s w t, inv n s w -> (t < n)%nat ->
  exists s1, clear_thread_error s t = Ok s1 /\ inv n s1 (with_cur (dropped w (w_cur w t)) t None) /\ s_mem s1 = s_mem s /\
             length (s_objs s1) = length (s_objs s).
Proof.
  intros n s w t I L. destruct (rep_drop n s w t I) as (s1 & E & R & M & Z).
  exists (with_current s1 t None). split.
  - unfold clear_thread_error. destruct (get_current s t) as [h|]; [|congruence]. destruct (release s h) as [r| |]; cbn [bind] in *; try discriminate. congruence.
  - split; auto. eapply inv_replace; eauto; [discriminate|]. now apply rep_current.
Qed.
Lemma clear_did : forall n l s t, inv n s (seen l) -> (t < n)%nat -> did n l s (OClear t).
Proof.
  intros n l s t I L. destruct (clear_ok n s _ t I L) as (s1 & E & I1 & M & _). do 4 eexists. split; [cbn [step]; rewrite E; reflexivity|].
  split; [cbn; auto|]. split; [|congruence]. eapply inv_ext; [|exact I1]. cbn [seen w_cur].
  destruct (current l t) as [h|] eqn:C; views; rewrite C; cbn [same one]; lia.
Qed.
Lemma set_did : forall n l s t x, inv n s (seen l) -> permitted l n (OSet t x) -> did n l s (OSet t x).
Proof.
  intros n l s t x I (L & Lv & Mn). unfold did. cbn [step]. unfold set_thread_error.
  assert (Fail : check_stack s x = Ok None -> is_stack l x = false -> did n l s (OSet t x)).
  { intros E Is. unfold did. cbn [step]. unfold set_thread_error. rewrite E. cbn [bind fst snd]. do 4 eexists. split; [reflexivity|].
    cbn [answers]. rewrite Is. split; auto. split; auto. eapply inv_ext; [|exact I]. views. rewrite andb_false_r. auto. }
  destruct x as [h|]; [|apply Fail; auto]. cbn [live] in Lv. cbn [mine] in Mn.
  destruct (rep_live _ _ _ h (i_rep _ _ _ I) Lv) as (b & Lk & M). unfold matches in M. cbn [seen w_made] in M.
  destruct (made l h) as [[[c m]|]|] eqn:Mk.
  - destruct M as (cap & room & -> & _). cbn [check_stack]. rewrite (look_deref _ _ _ Lk). cbn [bind b_stack].
    destruct (rep_drop n s _ t I) as (s1 & E & R & Mm & Z). rewrite E. cbn [bind fst snd]. do 4 eexists. split; [reflexivity|].
    cbn [answers is_stack]. rewrite Mk. split; auto. split; [|intros; cbn; congruence].
    apply inv_ext with (w := with_cur (dropped (seen l) (w_cur (seen l) t)) t (Some h)).
    + cbn [seen w_cur]. destruct (current l t) as [h'|] eqn:C; views; rewrite ?C; cbn [same one]; rewrite ?andb_true_r, ?andb_false_r; cbn [one]; auto; lia.
    + eapply inv_replace; eauto; [|now apply rep_current]. intros h' [= <-]. split; [exact Mn|]. exists c, m. exact Mk.
  - subst b. apply Fail; [cbn [check_stack]; rewrite (look_deref _ _ _ Lk); reflexivity|cbn [is_stack]; now rewrite Mk].
  - subst b. apply Fail; [cbn [check_stack]; rewrite (look_deref _ _ _ Lk); reflexivity|cbn [is_stack]; now rewrite Mk].
Qed.

Lemma inv_new : forall n s s1 w k, inv n s w -> rep n s1 (with_new w (length (s_objs s)) k) -> inv n s1 (with_new w (length (s_objs s)) k).
Proof.
  intros n s s1 w k I R. constructor; auto.
  - intros h. cbn [with_new w_refs]. unfold plus. change (hold (with_new w (length (s_objs s)) k) n h) with (hold w n h).
    pose proof (i_threads _ _ _ I h). pose proof (one_nonneg (Nat.eqb (length (s_objs s)) h)). lia.
  - intros t h C. cbn in C |- *. destruct (i_stacks _ _ _ I t h C) as (c & m & E). destruct (Nat.eqb_spec (length (s_objs s)) h) as [<-|]; [|eauto].
    exfalso. destruct (r_new _ _ _ (i_rep _ _ _ I) _ (le_n _)) as (_ & N & _). congruence.
Qed.
Lemma inv_rep : forall n s s1 w, inv n s w -> rep n s1 w -> inv n s1 w.
Proof. intros n s s1 w I R. constructor; auto; apply I. Qed.
Lemma unknown : forall n s l k, inv n s (seen l) -> (length (s_objs s) <= k)%nat -> made l k = None /\ references l k = 0 /\ elements l k = [] /\ spoiled l k = false.
Proof. intros n s l k I G. destruct (r_new _ _ _ (i_rep _ _ _ I) k G) as (A & B & C & D). auto. Qed.

Lemma create_did : forall n l s c m, inv n s (seen l) -> did n l s (OCreate c m).
Proof.
  intros n l s c m I. destruct (create_ok n s _ c m (i_rep _ _ _ I)) as (code & h & s1 & E & D). unfold did. cbn [step]. rewrite E.
  do 4 eexists. split; [reflexivity|]. destruct D as [(-> & -> & R & M)|(-> & -> & R & M)].
  - split; [|split; auto].
    + cbn [answers]. split; auto. split; [now left|]. split; [|discriminate]. intros _. eexists. split; auto. eapply unknown; eauto.
    + eapply inv_ext; [|eapply inv_new; eauto]. views.
  - split; [|split; [|tauto]].
    + cbn [answers]. split; auto. split; [right; auto|]. split; [discriminate|auto].
    + eapply inv_ext; [|eapply inv_rep; eauto]. views.
Qed.
Lemma other_did : forall n l s, inv n s (seen l) -> did n l s OOther.
Proof.
  intros n l s I. do 4 eexists. split; [reflexivity|]. split; [|split; auto].
  - cbn [answers]. split; auto. split; auto. eexists. split; auto. eapply unknown; eauto.
  - eapply inv_ext; [|eapply inv_new; [exact I|exact (rep_new n s _ None (i_rep _ _ _ I))]]. views.
Qed.
Lemma thread_error_did : forall n l s t c m, inv n s (seen l) -> (t < n)%nat -> did n l s (OThreadError t c m).
Proof.
  intros n l s t c m I L. destruct (clear_ok n s _ t I L) as (s1 & E & I1 & M & Z). unfold did. cbn [step]. unfold create_thread_error. rewrite E. cbn [bind].
  destruct (create_ok n s1 _ c m (i_rep _ _ _ I1)) as (code & h & s2 & E2 & D). rewrite E2.
  do 4 eexists. split; [reflexivity|]. destruct D as [(-> & -> & R & Mm)|(-> & -> & R & Mm)].
  - split; [|split].
    + cbn [answers]. split; auto. split; [now left|]. split; [|discriminate]. intros _. eexists. split; auto. eapply unknown; eauto. lia.
    + set (w1 := with_cur (dropped (seen l) (w_cur (seen l) t)) t None) in *. pose proof (inv_new _ _ _ _ _ I1 R) as I2.
      set (k := length (s_objs s1)) in *. set (w2 := with_new w1 k (Some (c, match m with Some b => b | None => [] end))) in *.
      apply inv_ext with (w := with_cur (dropped w2 (w_cur w2 t)) t (Some k)).
      * assert (C2 : w_cur w2 t = None) by (cbn; now rewrite Nat.eqb_refl). rewrite C2. cbn [dropped]. unfold w2, w1.
        cbn [seen w_cur]. destruct (current l t) as [h'|] eqn:C; views; rewrite ?C; cbn [same one];
          try (destruct (Nat.eqb t t0); reflexivity); lia.
      * eapply inv_replace; eauto.
        -- intros h' [= <-]. split; [|exists c; eexists; cbn; now rewrite Nat.eqb_refl].
           change (hold w2 n k) with (hold w1 n k). pose proof (i_threads _ _ _ I1 k). cbn [w2 with_new w_refs]. unfold w2, with_new, plus. cbn [w_refs].
           rewrite Nat.eqb_refl. cbn [one]. lia.
        -- apply rep_current; auto. assert (C2 : w_cur w2 t = None) by (cbn; now rewrite Nat.eqb_refl). rewrite C2. exact R.
    + cbn. intros X. apply Mm. congruence.
  - split; [|split; [|intros X; destruct Mm; congruence]].
    + cbn [answers]. split; auto. split; [right; split; congruence|]. split; [discriminate|auto].
    + eapply inv_ext; [|eapply inv_rep; eauto]. cbn [seen w_cur]. destruct (current l t) as [h'|] eqn:C; views; rewrite ?C; cbn [same one]; lia.
Qed.

Lemma push_ok : forall n l s x e, inv n s (seen l) -> live l x -> intact l x ->
  exists code s1, push s x e = Ok (code, s1) /\ (s_mem s = [] -> s_mem s1 = []) /\
    ((is_stack l x = false /\ code = ERR_INVALID_OBJECT /\ inv n s1 (seen l)) \/
     (is_stack l x = true /\ code = CCS_RESULT_SUCCESS /\ exists h, x = Some h /\ inv n s1 (with_push (seen l) h e)) \/
     (is_stack l x = true /\ code = ERR_OUT_OF_MEMORY /\ s_mem s <> [] /\ exists h, x = Some h /\ inv n s1 (with_spoil (seen l) h))).
Proof.
  intros n l s [h|] e I Lv In; [|do 2 eexists; split; [reflexivity|]; split; auto; left; auto].
  cbn [live intact] in *. destruct (rep_live _ _ _ h (i_rep _ _ _ I) Lv) as (b & Lk & M). unfold matches in M. cbn [seen w_made] in M.
  cbn [is_stack]. destruct (made l h) as [[[c m]|]|] eqn:Mk.
  - destruct (rep_push n s (seen l) h e c m (i_rep _ _ _ I) Lv Mk In) as (code & s1 & E & D). exists code, s1. split; [exact E|].
    destruct D as [(-> & R & Mm)|(-> & Mm & R)].
    + split; auto. right. left. split; auto. split; auto. exists h. split; auto. constructor; [exact R|exact (i_threads _ _ _ I)|exact (i_stacks _ _ _ I)].
    + split; [tauto|]. right. right. split; auto. split; auto. split; auto. exists h. split; auto. constructor; [exact R|exact (i_threads _ _ _ I)|exact (i_stacks _ _ _ I)].
  - subst b. do 2 eexists. split; [unfold push; cbn [check_stack]; rewrite (look_deref _ _ _ Lk); reflexivity|]. split; auto.
  - subst b. do 2 eexists. split; [unfold push; cbn [check_stack]; rewrite (look_deref _ _ _ Lk); reflexivity|]. split; auto.
Qed.
Lemma push_did : forall n l s x e, inv n s (seen l) -> live l x -> intact l x -> did n l s (OPush x e).
Proof.
  intros n l s x e I Lv In. destruct (push_ok n l s x e I Lv In) as (code & s1 & E & Mm & D). unfold did. cbn [step]. rewrite E. cbn [bind fst snd].
  do 4 eexists. split; [reflexivity|]. cbn [answers target].
  destruct D as [(-> & -> & I1)|[(-> & -> & h & -> & I1)|(-> & -> & Me & h & -> & I1)]].
  - split; auto. split; auto. eapply inv_ext; [|exact I1]. views; now rewrite ?andb_false_r, ?app_nil_r, ?orb_false_r.
  - split; [repeat split; now left|]. split; auto. eapply inv_ext; [|exact I1]. views; rewrite ?andb_true_r, ?andb_false_r, ?orb_false_r; auto.
  - split; [repeat split; now right|]. split; auto. eapply inv_ext; [|exact I1]. views; rewrite ?andb_true_r, ?andb_false_r, ?app_nil_r; auto.
Qed.
Lemma current_live : forall n l s t, inv n s (seen l) -> live l (current l t).
Proof. intros n l s t I. destruct (current l t) as [h|] eqn:C; cbn; auto. apply (inv_cur n s (seen l) t h I C). Qed.
Lemma thread_push_did : forall n l s t e, inv n s (seen l) -> intact l (current l t) -> did n l s (OThreadPush t e).
Proof.
  intros n l s t e I In. pose proof (current_live n l s t I) as Lv.
  destruct (push_ok n l s _ e I Lv In) as (code & s1 & E & Mm & D). unfold did. cbn [step]. unfold thread_push.
  rewrite (r_cur _ _ _ (i_rep _ _ _ I)). cbn [seen w_cur]. rewrite E. cbn [bind fst snd].
  do 4 eexists. split; [reflexivity|]. cbn [answers target].
  destruct D as [(-> & -> & I1)|[(-> & -> & h & C & I1)|(-> & -> & Me & h & C & I1)]].
  - split; auto. split; auto. eapply inv_ext; [|exact I1]. views; now rewrite ?andb_false_r, ?app_nil_r, ?orb_false_r.
  - split; [repeat split; now left|]. split; auto. eapply inv_ext; [|exact I1]. views; rewrite C; cbn [same]; rewrite ?andb_true_r, ?andb_false_r, ?orb_false_r; auto.
  - split; [repeat split; now right|]. split; auto. eapply inv_ext; [|exact I1]. views; rewrite C; cbn [same]; rewrite ?andb_true_r, ?andb_false_r, ?app_nil_r; auto.
Qed.

Lemma getter_ok : forall n l s x null f, inv n s (seen l) -> live l x ->
  (is_stack l x = false -> getter f s x null = Ok (ERR_INVALID_OBJECT, VNone)) /\
  (forall h c m, x = Some h -> made l h = Some (Some (c, m)) -> exists cap room,
     getter f s x null = Ok (if null then (ERR_INVALID_VALUE, VNone) else (CCS_RESULT_SUCCESS, f (mkStack c m (elements l h) cap room)))).
Proof.
  intros n l s x null f I Lv. destruct x as [h|]; [|split; [reflexivity|discriminate]].
  cbn [live] in Lv. destruct (rep_live _ _ _ h (i_rep _ _ _ I) Lv) as (b & Lk & M). unfold matches in M. cbn [seen w_made] in M.
  unfold getter. cbn [check_stack is_stack]. rewrite (look_deref _ _ _ Lk). cbn [bind b_stack]. split.
  - destruct (made l h) as [[[c m]|]|]; [discriminate|now subst|now subst].
  - intros h' c m [= <-] Mk. rewrite Mk in M. destruct M as (cap & room & -> & _). exists cap, room. now destruct null.
Qed.
Lemma getter_inv : forall n l s o code, inv n s (seen l) -> match o with OElems _ _ | OMessage _ _ | OCode _ _ => True | _ => False end ->
  inv n s (seen (mkEvent o code None :: l)).
Proof. intros n l s o code I T. eapply inv_ext; [|exact I]. destruct o; try easy; views. Qed.

Ltac reads l I Lv x :=
  match goal with |- context [getter ?f ?s x ?null] =>
    let G1 := fresh "G1" in let G2 := fresh "G2" in
    destruct (getter_ok _ _ s x null f I Lv) as (G1 & G2);
    let h := fresh "h" in let c := fresh "c" in let m := fresh "m" in let cap := fresh "cap" in let room := fresh "room" in
    destruct x as [h|]; [|rewrite G1 by reflexivity; do 4 eexists; split; [reflexivity|split; [cbn; auto|split; [apply getter_inv; auto; exact Logic.I|auto]]]];
    destruct (made l h) as [[[c m]|]|] eqn:Mk;
    [destruct (G2 h c m eq_refl Mk) as (cap & room & G2'); rewrite G2'
    |rewrite G1 by (cbn [is_stack]; now rewrite Mk)|rewrite G1 by (cbn [is_stack]; now rewrite Mk)]
  end.

Lemma elems_did : forall n l s x null, inv n s (seen l) -> live l x -> did n l s (OElems x null).
Proof.
  intros n l s x null I Lv. unfold did. cbn [step]. reads l I Lv x; cbn [bind].
  - do 4 eexists. split; [reflexivity|]. split; [cbn [answers]; rewrite Mk; destruct null; auto|]. split; [apply getter_inv; auto; exact Logic.I|auto].
  - do 4 eexists. split; [reflexivity|]. split; [cbn [answers]; rewrite Mk; auto|]. split; [apply getter_inv; auto; exact Logic.I|auto].
  - do 4 eexists. split; [reflexivity|]. split; [cbn [answers]; rewrite Mk; auto|]. split; [apply getter_inv; auto; exact Logic.I|auto].
Qed.
Lemma message_did : forall n l s x null, inv n s (seen l) -> live l x -> did n l s (OMessage x null).
Proof.
  intros n l s x null I Lv. unfold did. cbn [step]. reads l I Lv x; cbn [bind].
  - do 4 eexists. split; [reflexivity|]. split; [cbn [answers]; rewrite Mk; destruct null; auto|]. split; [apply getter_inv; auto; exact Logic.I|auto].
  - do 4 eexists. split; [reflexivity|]. split; [cbn [answers]; rewrite Mk; auto|]. split; [apply getter_inv; auto; exact Logic.I|auto].
  - do 4 eexists. split; [reflexivity|]. split; [cbn [answers]; rewrite Mk; auto|]. split; [apply getter_inv; auto; exact Logic.I|auto].
Qed.
Lemma code_did : forall n l s x null, inv n s (seen l) -> live l x -> did n l s (OCode x null).
Proof.
  intros n l s x null I Lv. unfold did. cbn [step]. reads l I Lv x; cbn [bind].
  - do 4 eexists. split; [reflexivity|]. split; [cbn [answers]; rewrite Mk; destruct null; auto|]. split; [apply getter_inv; auto; exact Logic.I|auto].
  - do 4 eexists. split; [reflexivity|]. split; [cbn [answers]; rewrite Mk; auto|]. split; [apply getter_inv; auto; exact Logic.I|auto].
  - do 4 eexists. split; [reflexivity|]. split; [cbn [answers]; rewrite Mk; auto|]. split; [apply getter_inv; auto; exact Logic.I|auto].
Qed.
Lemma retain_mem : forall s h c s1, retain s h = Ok (c, s1) -> s_mem s1 = s_mem s.
Proof.
  intros s h c s1 E. unfold retain in E. destruct (deref s h) as [o| |]; try discriminate. cbn [bind] in E.
  destruct (b_ref o <=? 0); [now injection E as _ <-|]. destruct (b_ref o =? INT32_MAX); [discriminate|]. now injection E as _ <-.
Qed.
Lemma retain_did : forall n l s h, inv n s (seen l) -> 0 < references l h < INT32_MAX -> did n l s (ORetain h).
Proof.
  intros n l s h I P. destruct (rep_retain n s _ h (i_rep _ _ _ I) P) as (s1 & E & R). unfold did. cbn [step]. rewrite E. cbn [bind fst snd].
  do 4 eexists. split; [reflexivity|]. split; [cbn; auto|]. split; [|intros X; now rewrite (retain_mem _ _ _ _ E)].
  eapply inv_ext with (w := mkView (current l) (plus (references l) h 1) (made l) (elements l) (spoiled l)); [views|].
  constructor; [exact R| |apply I]. intros k. pose proof (i_threads _ _ _ I k) as T. cbn [w_refs]. unfold plus.
  pose proof (one_nonneg (Nat.eqb h k)). change (hold _ n k) with (hold (seen l) n k). cbn [seen w_refs] in T. lia.
Qed.
Lemma release_did : forall n l s h, inv n s (seen l) -> 0 < references l h -> by_threads l n h < references l h -> did n l s (ORelease h).
Proof.
  intros n l s h I P B. destruct (rep_release n s _ h (i_rep _ _ _ I) P) as (s1 & E & R & M & _). unfold did. cbn [step]. rewrite E. cbn [bind fst snd].
  do 4 eexists. split; [reflexivity|]. split; [cbn; auto|]. split; [|congruence].
  eapply inv_ext with (w := drop_ref (seen l) h); [views|].
  constructor; [exact R| |apply I]. intros k. pose proof (i_threads _ _ _ I k) as T. cbn [w_refs drop_ref]. unfold plus.
  change (hold _ n k) with (hold (seen l) n k). cbn [seen w_refs] in T |- *. destruct (Nat.eqb_spec h k) as [<-|]; cbn [one]; [|lia].
  change (by_threads l n h) with (hold (seen l) n h) in B. cbn [seen w_refs] in B. lia.
Qed.

Lemma all_did : forall n l s o, inv n s (seen l) -> permitted l n o -> did n l s o.
Proof.
  intros n l s o I P. destruct o; cbn [permitted] in P.
  - now apply get_did.
  - now apply clear_did.
  - now apply set_did.
  - now apply thread_error_did.
  - destruct P. now apply thread_push_did.
  - now apply create_did.
  - destruct P. now apply push_did.
  - now apply elems_did.
  - now apply message_did.
  - now apply code_did.
  - now apply other_did.
  - now apply retain_did.
  - destruct P. now apply release_did.
Qed.

Lemma start_inv : forall n mem, inv n (start n mem) (seen []).
Proof.
  intros n mem. constructor; [constructor| |].
  - apply repeat_length.
  - intros t. unfold get_current. cbn [s_current start]. destruct (nth_error (repeat None n) t) eqn:E; auto.
    apply nth_error_In, repeat_spec in E. now subst.
  - intros h. left. split; auto. unfold look. cbn. now destruct h.
  - intros h _. auto.
  - intros h. cbn [seen w_refs references]. unfold hold. apply Z.eq_le_incl. cbn [seen w_cur]. unfold total. induction (seq 0 n) as [|a r IH]; cbn [fold_right]; [reflexivity|rewrite IH; reflexivity].
  - discriminate.
Qed.
Lemma history_inv : forall n l s, history n l s -> inv n s (seen l).
Proof.
  induction 1 as [mem|l s o code h v s1 H IH P S]; [apply start_inv|].
  destruct (all_did n l s o IH P) as (code' & h' & v' & s1' & E & _ & I & _). rewrite S in E. injection E as <- <- <- <-. exact I.
Qed.
