(** Configurations made by a configuration space. *)
From Coq Require Import ZArith List Bool Lia.
From Verif Require Import Base LifeModel LifeSpec LifeProofs LifeOps LifeCalls LifeCalls2.
Import ListNotations.
Open Scope Z_scope.

Lemma nodup_snoc : forall A (l : list A) x, NoDup l -> ~ In x l -> NoDup (l ++ [x]).
Proof.
  intros A l x N I. apply NoDup_rev in N. rewrite <- (rev_involutive (l ++ [x])).
  apply NoDup_rev. rewrite rev_app_distr. cbn. constructor; auto. now rewrite <- in_rev.
Qed.

Section Calls.
Variables (s0 : st) (e0 : handle -> Z).
Hypothesis O0 : ok s0 e0.
Let A0 : at_ s0 e0 s0 := at_refl s0 e0 O0.

Lemma at_made : forall h s1 t p, at_ s0 (plus e0 h) s1 -> (size s0 <= h)%nat ->
  look s1 h = Some (mkObj t 1 [] p) -> made_ s0 e0 t p h s1.
Proof. intros h s1 t p (O & K & _) G L. split; auto. split; auto. split; auto. Qed.

Lemma get_default_configuration_ok : forall x v, valid s0 x ->
  wp (get_default_configuration x v) s0
     (fun h s1 => exists cs, x = Some cs /\ made_ s0 e0 T_CONFIGURATION (PConfiguration cs) h s1)
     (failed_ s0 e0).
Proof.
  intros x v V. pose proof A0 as A. unfold get_default_configuration. step1. step1. step1.
  eapply (create_configuration_at s0); [exact A|eassumption|assumption| |intros; failing_].
  intros s1 cf A1 Ge Ec L1 Lc. clear A. step1. step1. apply wp_verdict.
  - intros c _ N. step1. failing_.
  - intros _. step1. exists h. split; auto. apply at_made; auto.
Qed.

Lemma wp_sample_loop : forall l n s (Q : unit -> st -> Prop) (F : Z -> st -> Prop),
  errors l -> Q tt s -> (forall c, c < 0 -> F c s) -> wp (sample_loop n l) s Q F.
Proof.
  intros l n. revert l. induction n as [|n IH]; intros l s Q F E HQ HF; cbn [sample_loop].
  - apply wp_raise. apply HF. reflexivity.
  - destruct l as [|[| |c] l].
    + now apply wp_ret.
    + now apply wp_ret.
    + apply IH; auto. intros c I. apply E. now right.
    + apply wp_raise. apply HF. apply E. now left.
Qed.

Lemma space_sample_ok : forall x l, valid s0 x -> errors l ->
  wp (space_sample x l) s0
     (fun h s1 => exists cs, x = Some cs /\ made_ s0 e0 T_CONFIGURATION (PConfiguration cs) h s1)
     (failed_ s0 e0).
Proof.
  intros x l V E. pose proof A0 as A. unfold space_sample. step1. step1. step1.
  eapply (create_configuration_at s0); [exact A|eassumption|assumption| |intros; failing_].
  intros s1 cf A1 Ge Ec L1 Lc. clear A. step1. step1. apply wp_sample_loop; auto.
  - step1. exists h. split; auto. apply at_made; auto.
  - intros c N. step1. failing_.
Qed.

(** Releasing, with a view on the objects that remain. *)
Lemma wp_drop_look : forall e s h (Q : unit -> st -> Prop) (F : Z -> st -> Prop),
  at_ s0 e s -> 0 < e h -> (forall x, e0 x <= minus e h x) ->
  (forall s', at_ s0 (minus e h) s' -> size s' = size s ->
     (forall x o, live s' x o -> exists o1, live s x o1 /\ o = with_ref o1 (o_ref o)) -> Q tt s') ->
  wp (drop h) s Q F.
Proof.
  intros e s h Q F A P E H.
  assert (W1 : wp (drop h) s (fun _ s' => at_ s0 (minus e h) s') (fun _ _ => False)).
  { eapply wp_drop_at; eauto. }
  assert (W2 : wp (drop h) s (fun _ s' => exists ev, effect s (minus e h) s' ev) (fun _ _ => False)).
  { destruct (release_ok s e h (proj1 A) P) as (s' & ev & R & Ef & O').
    apply wp_ignore. unfold wp. destruct R as [->|(c & o & -> & _)]; eauto. }
  eapply wp_conseq; [apply (wp_and _ _ _ _ _ _ _ W1 W2)| |intros c s' [[] _]].
  intros [] s' (A' & ev & Ef). apply H; auto.
  - apply Ef.
  - intros x o L. destruct (effect_stays _ _ _ _ _ _ Ef L) as (o1 & L1 & E1). eauto.
Qed.

(** The new objects are those listed, configurations of [cs]. *)
Definition listed (s : st) (cs : handle) (l : list handle) : Prop :=
  NoDup l /\ Forall (fun h => fresh s0 s h T_CONFIGURATION (PConfiguration cs)) l /\
  forall h o, (size s0 <= h)%nat -> look s h = Some o -> In h l.

Definition sampled_ (cs : handle) (want : nat) (code : Z) (arr : list handle) (s1 : st) : Prop :=
  exists rest, at_ s0 (fun x => e0 x + times x arr + times x rest) s1 /\
    listed s1 cs (arr ++ rest) /\ (length rest <= 1)%nat /\ (length arr <= want)%nat /\
    ((code = CCS_RESULT_SUCCESS /\ length arr = want /\ rest = []) \/
     (code < 0 /\ (length arr < want)%nat /\ (code = ERR_SAMPLING_UNSUCCESSFUL \/ rest = []))).

Lemma times_nodup : forall x l, NoDup l -> In x l -> times x l = 1.
Proof.
  intros x l N I. unfold times. rewrite NoDup_count_occ' with (decA := Nat.eq_dec) in N.
  now rewrite (N x I).
Qed.

Lemma samples_loop_ok : forall cs o, live s0 cs o -> o_type o = T_CONFIGURATION_SPACE ->
  forall n want cur arr l s, errors l ->
  at_ s0 (fun x => e0 x + times x arr + times x (olist cur)) s ->
  listed s cs (arr ++ olist cur) -> (length arr <= want)%nat ->
  (cur <> None -> (length arr < want)%nat) ->
  wp (samples_loop cs n want cur arr l) s
     (fun r s1 => sampled_ cs want (fst r) (snd r) s1) (fun _ _ => False).
Proof.
  intros cs o L T. induction n as [|n IH]; intros want cur arr l s E A Ls Le Lt; cbn [samples_loop].
  - destruct (Nat.ltb_spec (length arr) want).
    + apply wp_ret. exists (olist cur). split; auto. split; auto. split; [destruct cur; cbn; lia|].
      split; [auto|]. right. cbn. split; [reflexivity|]. auto.
    + apply wp_ret. assert (cur = None) as -> by (destruct cur; auto; specialize (Lt ltac:(discriminate)); lia).
      exists []. split; auto. split; auto. split; [cbn; lia|]. split; auto. left. cbn. repeat split; lia.
  - destruct (Nat.ltb_spec (length arr) want) as [Lw|Lw].
    2:{ apply wp_ret. assert (cur = None) as -> by (destruct cur; auto; specialize (Lt ltac:(discriminate)); lia).
        exists []. split; auto. split; auto. split; [cbn; lia|]. split; auto. left. cbn. repeat split; lia. }
    clear Lt.
    (* the configuration worked on *)
    assert (C : wp (match cur with
                    | Some c => ret c
                    | None => create_configuration (Some cs) (VNull 0)
                    end) s
      (fun c s1 => at_ s0 (fun x => e0 x + times x arr + is x c) s1 /\ listed s1 cs (arr ++ [c]))
      (fun k s1 => k < 0 /\ at_ s0 (fun x => e0 x + times x arr) s1 /\ listed s1 cs arr)).
    { destruct cur as [c|].
      - apply wp_ret. split; auto. eapply at_ext; [|exact A]. intros x. cbn [olist].
        rewrite times_cons, times_nil. lia.
      - cbn [olist] in *. rewrite app_nil_r in Ls.
        assert (W1 : wp (create_configuration (Some cs) (VNull 0)) s
                        (fun c s1 => at_ s0 (fun x => e0 x + times x arr + is x c) s1 /\ listed s1 cs (arr ++ [c]))
                        (fun k s1 => k < 0 /\ at_ s0 (fun x => e0 x + times x arr) s1 /\ (forall h, look s1 h = look s h))).
        { unfold create_configuration. apply wp_bind.
          assert (A' : at_ s0 (fun x => e0 x + times x arr) s).
          { eapply at_ext; [|exact A]. intros. cbv beta. rewrite times_nil. lia. }
          clear A. rename A' into A.
          destruct (at_live _ _ _ _ _ A L) as (r & Pr & Lr).
          eapply wp_check_live; [apply Lr|exact T|]. apply wp_bind.
          eapply wp_num_parameters; [apply Lr|]. intros m. apply wp_bind.
          cbn [check_values]. apply wp_refute; [discriminate|intros _].
          apply wp_bind. eapply wp_alloc_look; [eassumption| |].
          2:{ intros s1 A1 E1 _. split; [reflexivity|]. split; auto. now apply look_objs. }
          intros s1 A1 E1 _ _. apply wp_bind. eapply wp_retain_look; [exact A1|eexists; eauto|].
          intros s2 A2 L2 Sz2. pose proof (size_objs _ _ E1) as Sz1. apply wp_bind. apply wp_ret.
          eapply wp_new_at; [exact A2| |cbn; auto|exact Logic.I|reflexivity| |].
          - intros x. cbn. unfold plus. pose proof (ok_nonneg _ _ x (proj1 A1)). cbv beta in *. lia.
          - intros x U I. destruct I as [I|[]]. injection I as <- <-. eapply wants_at; eauto.
          - intros s3 e3 A3 E3 Ge L3.
            assert (Lc : (cs < size s0)%nat) by (eapply look_lt; apply L).
            assert (Same : forall x, (size s0 <= x)%nat -> x <> size s2 -> look s3 x = look s x).
            { intros x Gx N. rewrite L3. destruct (Nat.eq_dec x (size s2)); [easy|].
              rewrite L2 by lia. now apply look_objs. }
            assert (Lold : Forall (fun x => (x < size s2)%nat) arr).
            { destruct Ls as (_ & F & _). eapply Forall_impl; [|exact F]. intros x (_ & Lx).
              apply look_lt in Lx. lia. }
            split.
            + eapply at_ext; [|exact A3]. intros x. rewrite E3. cbn. unfold plus. lia.
            + destruct Ls as (Nd & F & Only). split; [|split].
              * apply nodup_snoc; auto. intros I. rewrite Forall_forall in Lold. specialize (Lold _ I). lia.
              * apply Forall_app. split.
                -- rewrite Forall_forall in *. intros x I. destruct (F x I) as (G & Lx). split; auto.
                   rewrite Same; auto. specialize (Lold x I). lia.
                -- constructor; auto. split; auto. rewrite L3. now destruct (Nat.eq_dec (size s2) (size s2)).
              * intros x ox G Lx. apply in_or_app. destruct (Nat.eq_dec x (size s2)) as [->|N]; [right; now left|].
                left. rewrite Same in Lx by auto. eauto. }
        eapply wp_conseq; [exact W1|auto|].
        intros k s1 (N & A1 & E1). split; auto. split; auto. destruct Ls as (Nd & F & Only).
        split; auto. split.
        + eapply Forall_impl; [|exact F]. intros x (G & Lx). split; auto. now rewrite E1.
        + intros x ox G Lx. rewrite E1 in Lx. eauto. }
    unfold wp. unfold wp in C.
    assert (Eq : forall (B : Type) (k : out handle -> B),
      k (match cur with Some c => Done c s | None => create_configuration (Some cs) (VNull 0) s end) =
      k ((match cur with Some c => ret c | None => create_configuration (Some cs) (VNull 0) end) s)).
    { intros. destruct cur; reflexivity. }
    cbv beta. rewrite (Eq _ (fun r => match r with
        | Undef w => Undef w
        | Fail c s1 => Done (c, arr) s1
        | Done config s1 =>
            match l with
            | TMissed :: l' => samples_loop cs n want (Some config) arr l' s1
            | TError c :: _ => (drop config ;;; ret (c, arr)) s1
            | _ => samples_loop cs n want None (arr ++ [config]) (tl l) s1
            end
        end)). clear Eq.
    destruct ((match cur with Some c => ret c | None => create_configuration (Some cs) (VNull 0) end) s)
      as [c s1|k s1|w]; auto.
    + destruct C as (A1 & L1).
      assert (Found : wp (samples_loop cs n want None (arr ++ [c]) (tl l)) s1
                         (fun r s2 => sampled_ cs want (fst r) (snd r) s2) (fun _ _ => False)).
      { apply IH.
        - intros k I. apply E. destruct l; [easy|]. now right.
        - eapply at_ext; [|exact A1]. intros x. cbn [olist]. rewrite times_app, times_cons, !times_nil. lia.
        - cbn [olist]. now rewrite app_nil_r.
        - rewrite app_length. cbn. lia.
        - easy. }
      destruct l as [|[| |k] l']; auto.
      * apply (IH want (Some c) arr l' s1); auto.
        -- intros k I. apply E. now right.
        -- eapply at_ext; [|exact A1]. intros x. cbn [olist]. rewrite times_cons, times_nil. lia.
      * assert (W : wp (drop c) s1 (fun _ s2 => sampled_ cs want k arr s2) (fun _ _ => False)).
        { eapply wp_drop_look; [exact A1| | |].
          - cbv beta. rewrite is_same. pose proof (ok_nonneg _ _ c O0). pose proof (times_nonneg c arr). lia.
          - intros x. unfold minus. pose proof (times_nonneg x arr). lia.
          - intros s2 A2 Sz Keep.
            assert (A2' : at_ s0 (fun x => e0 x + times x arr) s2).
            { eapply at_ext; [|exact A2]. intros x. unfold minus. lia. }
            exists []. split; [eapply at_ext; [|exact A2']; intros x; cbv beta; rewrite times_nil; lia|].
            rewrite app_nil_r. split; [|split; [cbn; lia|split; [auto|right; split; [apply E; now left|auto]]]].
            destruct L1 as (Nd & F & Only).
            assert (Nc : ~ In c arr).
            { intros I. apply NoDup_remove_2 in Nd. apply Nd. now rewrite app_nil_r. }
            assert (Na : NoDup arr).
            { apply NoDup_remove_1 in Nd. now rewrite app_nil_r in Nd. }
            rewrite Forall_forall in F.
            assert (Held : forall x, (size s0 <= x)%nat -> In x (arr ++ [c]) -> held s1 x = 0).
            { intros x G I. destruct (F x I) as (_ & Lx).
              pose proof (counted_live _ _ _ _ (proj1 (proj1 A1)) (conj Lx eq_refl : live s1 x _)) as R.
              cbn in R. destruct (counted_big s0 e0 x (proj1 O0) G) as [_ Z0].
              apply in_app_or in I as [I|[->|[]]].
              - rewrite (times_nodup _ _ Na I) in R.
                pose proof (is_nonneg x c). pose proof (held_nonneg s1 x). lia.
              - rewrite is_same in R. pose proof (times_nonneg x arr). pose proof (held_nonneg s1 x). lia. }
            assert (Held2 : forall x, held s1 x = 0 -> held s2 x = 0).
            { intros x H. destruct (Z.eq_dec (held s2 x) 0); auto. pose proof (held_nonneg s2 x).
              destruct (held_holder s2 x ltac:(lia)) as (y & oy & Ly & Hy).
              destruct (Keep y oy Ly) as (o1 & Lo & Eo).
              assert (holder s1 y x) as Hd by (exists o1; split; auto; rewrite Eo in Hy; exact Hy).
              apply holder_held in Hd. lia. }
            split; auto. split.
            * apply Forall_forall. intros x I. destruct (F x ltac:(apply in_or_app; auto)) as (G & Lx).
              split; auto. pose proof (Held2 x (Held x G ltac:(apply in_or_app; auto))) as H2.
              destruct (counted_big s0 e0 x (proj1 O0) G) as [_ Z0].
              assert (alive s2 x) as (o2 & L2).
              { eapply ok_alive; [apply A2'|]. cbv beta. rewrite (times_nodup _ _ Na I). lia. }
              destruct (Keep x o2 L2) as (o1 & Lo & Eo).
              pose proof (counted_live _ _ _ _ (proj1 (proj1 A2')) L2) as R. cbv beta in R.
              rewrite (times_nodup _ _ Na I), H2, Z0 in R.
              destruct Lo as [Lo _]. rewrite Lx in Lo. inversion Lo; subst o1.
              destruct L2 as [L2 _]. rewrite L2, Eo. unfold with_ref; cbn. now rewrite R.
            * intros x ox G Lx.
              destruct A2 as (O2 & K2 & Y2). destruct (Y2 x ox G Lx) as (Px & _).
              destruct (Keep x ox (conj Lx Px)) as (o1 & [Lo Po] & Eo).
              pose proof (Only x o1 G Lo) as I. apply in_app_or in I as [I|[<-|[]]]; auto. exfalso.
              pose proof (counted_live _ _ _ _ (proj1 (proj1 A2')) (conj Lx Px)) as R. cbv beta in R.
              destruct (counted_big s0 e0 c (proj1 O0) G) as [_ Z0].
              rewrite (Held2 c (Held c G ltac:(apply in_or_app; right; now left))) in R.
              assert (times c arr = 0) as Zt.
              { pose proof (times_nonneg c arr). destruct (Z.eq_dec (times c arr) 0); auto. exfalso.
                apply Nc, times_in. lia. }
              lia. }
        unfold wp in W. unfold bindp, ret. destruct (drop c s1); auto.
    + destruct C as (N & A1 & L1). exists []. cbn [fst snd]. split.
      * eapply at_ext; [|exact A1]. intros x. cbv beta. rewrite times_nil. lia.
      * rewrite app_nil_r. split; auto. split; [cbn; lia|]. split; auto.
Qed.

Lemma space_samples_ok : forall x want l, valid s0 x -> errors l ->
  wp (space_samples x want l) s0
     (fun r s1 => exists cs, x = Some cs /\ sampled_ cs want (fst r) (snd r) s1)
     (failed_ s0 e0).
Proof.
  intros x want l V E. pose proof A0 as A. unfold space_samples. step1. step1.
  eapply wp_conseq; [eapply samples_loop_ok; eauto| |easy].
  - eapply at_ext; [|exact A]. intros. cbn [olist]. rewrite !times_nil. lia.
  - cbn. split; [constructor|]. split; auto. intros y o' G L. rewrite look_big in L by auto. discriminate.
  - cbn. lia.
  - easy.
  - intros r s1 S. eauto.
Qed.
End Calls.
