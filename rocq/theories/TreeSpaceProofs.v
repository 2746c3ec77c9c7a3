(** Proofs about positions in dynamic tree spaces. *)
From Coq Require Import ZArith List Bool Lia Arith.
From Verif Require Import Base Datum CodecModel FloatModel TreeModel TreeSpec TreeHeap TreeProofs TreeSteps TreeNav TreeFacts RngModel TreeSpaceModel TreeSpaceSpec.
Import ListNotations.
Open Scope Z_scope.

Lemma put_at_same_or_new (l l' : list (option nat)) i c : nth_error l i = Some None -> put_at l i c l' -> Forall2 same_or_new l l'.
Proof.
  intros N (L & E & O). revert i l' N L E O. induction l as [|a l IH]; intros [|i] [|b l'] N L E O; try discriminate; cbn in *.
  - injection N as ->. injection E as ->. constructor; [now left|].
    assert (l' = l); [|subst; clear; induction l; constructor; auto; now right].
    assert (Q : forall j, nth_error l' j = nth_error l j) by (intro j; now apply (O (S j))).
    clear -Q. revert l' Q. induction l as [|a l IH]; intros [|b l'] Q; [reflexivity|now specialize (Q O)|now specialize (Q O)|].
    f_equal; [specialize (Q O); cbn in Q; congruence|]. apply IH. intro j. apply (Q (S j)).
  - constructor; [right; specialize (O 0%nat ltac:(discriminate)); cbn in O; congruence|]. apply (IH i l'); [exact N|lia|exact E|]. intros j J. apply (O (S j)). congruence.
Qed.
Lemma same_or_new_refl l : Forall2 same_or_new l l.
Proof. induction l; constructor; auto. now right. Qed.
Lemma same_or_new_trans l1 : forall l2 l3, Forall2 same_or_new l1 l2 -> Forall2 same_or_new l2 l3 -> Forall2 same_or_new l1 l3.
Proof.
  induction l1 as [|a l1 IH]; intros l2 l3 A B; inversion A; subst; inversion B; subst; constructor; eauto.
  match goal with H : same_or_new a _, H' : same_or_new _ _ |- _ => unfold same_or_new in *; intuition congruence end.
Qed.
Lemma grown_refl h : grown h h.
Proof. intros x vw E. exists (v_children vw). split; [now destruct vw|apply same_or_new_refl]. Qed.
Lemma grown_trans h1 h2 h3 : grown h1 h2 -> grown h2 h3 -> grown h1 h3.
Proof.
  intros A B x vw E. destruct (A x vw E) as (l & E2 & F). destruct (B x _ E2) as (l' & E3 & F'). exists l'. split; [exact E3|].
  eapply same_or_new_trans; [exact F|exact F'].
Qed.
Lemma keeps_grown h h' : keeps_nodes h h' -> grown h h'.
Proof. intros K x vw E. exists (v_children vw). split; [rewrite K; [rewrite E; now destruct vw|unfold alive; congruence]|apply same_or_new_refl]. Qed.
Lemma grown_child h h' t vw i c : grown h h' -> seen h t = Some vw -> nth_error (v_children vw) i = Some (Some c) ->
  exists vw', seen h' t = Some vw' /\ v_arity vw' = v_arity vw /\ nth_error (v_children vw') i = Some (Some c).
Proof.
  intros G E N. destruct (G t vw E) as (l & E' & F). eexists. split; [exact E'|]. split; [reflexivity|]. cbn.
  clear -F N. revert i N. induction F as [|a b l1 l2 S F IH]; intros [|i] N; try discriminate; cbn in *; [|now apply IH].
  injection N as ->. destruct S as [S|S]; congruence.
Qed.
Lemma child_or h t vw i : forest h -> seen h t = Some vw ->
  (exists c, nth_error (v_children vw) i = Some (Some c)) \/ (v_arity vw <= i)%nat \/ nth_error (v_children vw) i = Some None.
Proof.
  intros F E. destruct (F t vw E) as (L & _). destruct (nth_error (v_children vw) i) as [[c|]|] eqn:N; [left; eauto|auto|].
  right. left. apply nth_error_None in N. lia.
Qed.
Lemma under_old h h' t c : forest h -> keeps_nodes h h' -> alive h t -> under h' c t -> alive h c.
Proof.
  intros F K A U. induction U as [|id v p i E P U IH]; [exact A|]. apply IH.
  rewrite K in E by exact A. destruct (F id v E) as (_ & _ & Q & _). destruct (Q p i P) as (u & Eu & _). unfold alive. congruence.
Qed.
Lemma grown_attach h t i c v u l h' : seen h t = Some v -> seen h c = Some u -> c <> t -> nth_error (v_children v) i = Some None ->
  put_at (v_children v) i (Some c) l ->
  (forall x, seen h' x = changed (changed (seen h) t (Some (v_with_children v l))) c (Some (v_with_parent u (Some (t, i)))) x) ->
  forall x vw, x <> c -> seen h x = Some vw -> exists l, seen h' x = Some (v_with_children vw l) /\ Forall2 same_or_new (v_children vw) l.
Proof.
  intros Et Ec NE N P H x vw X E. rewrite H. unfold changed. destruct (Nat.eqb_spec x c); [contradiction|].
  destruct (Nat.eqb_spec x t) as [->|].
  - assert (vw = v) by congruence. subst vw. exists l. split; [reflexivity|]. eapply put_at_same_or_new; eauto.
  - exists (v_children vw). split; [rewrite E; now destruct vw|apply same_or_new_refl].
Qed.

Section Dyn.
  Variable S : Type.
  Variable v : tvector S.
  Hypothesis B : behaves S v.

  Lemma get_child_view h t vw i : seen h t = Some vw -> length (v_children vw) = v_arity vw ->
    get_child h t i = match nth_error (v_children vw) i with Some c => Ok c | None => Err ERR_OUT_OF_BOUNDS end.
  Proof.
    intros E L. apply seen_node in E as (n & E & ->). cbn [view_of v_children v_arity] in *. unfold get_child. rewrite (read_node _ _ _ E). cbn [bind].
    destruct (nth_error (n_children n) i) as [c|] eqn:N.
    - assert (i < n_arity n)%nat by (rewrite <- L; apply nth_error_Some; congruence).
      destruct (Nat.leb_spec (n_arity n) i); [lia|]. cbn [refute bind]. now rewrite nth_nth_error, N.
    - apply nth_error_None in N. destruct (Nat.leb_spec (n_arity n) i); [reflexivity|lia].
  Qed.
  Lemma dyn_child_cases w t i vw : reached (fst w) -> seen (fst w) t = Some vw ->
    (exists c, nth_error (v_children vw) i = Some (Some c) /\ alive (fst w) c /\ dyn_child S v w t i = (Ok c, w)) \/
    ((v_arity vw <= i)%nat /\ dyn_child S v w t i = (Err ERR_OUT_OF_BOUNDS, w)) \/
    (nth_error (v_children vw) i = Some None /\ exists r w1, tv_child S v w t i = (r, w1) /\ reached (fst w1) /\ keeps_nodes (fst w) (fst w1) /\
      ((exists c h2, r = Ok (Some c) /\ outcome (fst w1) (OSetChild t i c) (Ok h2) /\ reached h2 /\ grown (fst w) h2 /\
          seen h2 c <> None /\ (exists vw2, seen h2 t = Some vw2 /\ v_arity vw2 = v_arity vw /\ nth_error (v_children vw2) i = Some (Some c)) /\
          dyn_child S v w t i = (Ok c, (h2, snd w1))) \/
       (exists c u p, r = Ok (Some c) /\ seen (fst w1) c = Some u /\ v_parent u = Some p /\ dyn_child S v w t i = (Err ERR_INVALID_TREE, w1)) \/
       (r = Ok None /\ dyn_child S v w t i = (Err ERR_INVALID_OBJECT, w1)) \/
       (exists e, r = Err e /\ dyn_child S v w t i = (Err e, w1)))).
  Proof.
    intros R E. pose proof (always_forest _ R) as F. destruct (F t vw E) as (L & C & _).
    pose proof (get_child_view _ t vw i E L) as G. unfold dyn_child.
    destruct (nth_error (v_children vw) i) as [[c|]|] eqn:N.
    - left. exists c. rewrite G. split; [reflexivity|]. split; [|reflexivity]. destruct (C i c N) as (u & Eu & _). unfold alive. congruence.
    - right. right. split; [reflexivity|]. rewrite G. pose proof (B w t i vw R E N) as BB. destruct (tv_child S v w t i) as [r w1].
      destruct BB as (R1 & K & BB). exists r, w1. split; [reflexivity|]. split; [exact R1|]. split; [exact K|].
      destruct r as [[c|]|e|]; [|now right; right; left|right; right; right; eauto|contradiction].
      destruct BB as [AC NC]. assert (At : alive (fst w) t) by (unfold alive; congruence).
      assert (Et : seen (fst w1) t = Some vw) by (rewrite K; auto).
      assert (AL : allowed (fst w1) (OSetChild t i c)).
      { split; [unfold alive; congruence|]. split; [exact AC|]. intro U. apply NC. eapply under_old; eauto. }
      pose proof (operations _ _ R1 AL) as OP. change (step (fst w1) (OSetChild t i c)) with (set_child (fst w1) t i c) in OP.
      inversion OP as [| |t0 i0 c0 v0 u0 l0 h' S1 S2 S3 S4 S5 S6 S7|t0 i0 c0 v0 S1 S2|t0 i0 c0 v0 d S1 S2|t0 i0 c0 v0 u0 p S1 S2 S3 S4| | | | | |]; subst.
      + left. exists c, h'. split; [reflexivity|]. split; [econstructor; eauto|].
        assert (R2 : reached h') by (apply (reached_ok (fst w1) (OSetChild t i c) h' R1 AL); cbn [step]; congruence).
        split; [exact R2|]. assert (NEc : c <> t) by (intros ->; now apply NC).
        assert (v0 = vw) by congruence. subst v0. split; [|split; [|split; [|reflexivity]]].
        * intros x vx Ex. assert (Ex1 : seen (fst w1) x = Some vx) by (rewrite K; [exact Ex|unfold alive; congruence]).
          apply (grown_attach (fst w1) t i c vw u0 l0 h'); auto. intros ->. apply NC. unfold alive. congruence.
        * rewrite S6. unfold changed. now rewrite Nat.eqb_refl.
        * exists (v_with_children vw l0). split; [rewrite S6; unfold changed; destruct (Nat.eqb_spec t c); [congruence|]; now rewrite Nat.eqb_refl|].
          split; [reflexivity|]. apply S5.
      + exfalso. assert (v0 = vw) by congruence. subst. assert (i < length (v_children vw))%nat by (apply nth_error_Some; congruence). lia.
      + exfalso. congruence.
      + right. left. eexists. exists u0, p. split; [reflexivity|]. split; [exact S3|]. split; [exact S4|reflexivity].
    - right. left. apply nth_error_None in N. rewrite G. split; [lia|reflexivity].
  Qed.

  Lemma dyn_node_explores l : forall w t, reached (fst w) -> alive (fst w) t ->
    exists r w', dyn_node S v w t l = (r, w') /\ explores S v w t l r w' /\ reached (fst w') /\ grown (fst w) (fst w') /\
      match r with Ok d => designates (fst w') t l d | Err _ => True | UB _ => False end.
  Proof.
    induction l as [|i l IH]; intros w t R A.
    - exists (Ok t), w. split; [reflexivity|]. split; [constructor|]. split; [exact R|]. split; [apply grown_refl|now constructor].
    - unfold alive in A. destruct (seen (fst w) t) as [vw|] eqn:E; [|congruence]. cbn [dyn_node].
      destruct (dyn_child_cases w t i vw R E) as [(c & N & AC & ->)|[[N ->]|(N & r & w1 & T & R1 & K & [(c & h2 & -> & O & R2 & G2 & A2 & (vw2 & E2 & Ar & N2) & ->)|[(c & u & p & -> & Eu & Pu & ->)|[[-> ->]|(e & -> & ->)]]])]].
      + destruct (IH w c R AC) as (r & w' & D & X & R' & G & Q). exists r, w'. split; [exact D|]. split; [eapply ex_exists; eauto|]. split; [exact R'|]. split; [exact G|].
        destruct r; auto. destruct (grown_child _ _ t vw i c G E N) as (vw' & E' & _ & N'). eapply des_down; eauto.
      + exists (Err ERR_OUT_OF_BOUNDS), w. split; [reflexivity|]. split; [eapply ex_beyond; eauto|]. split; [exact R|]. split; [apply grown_refl|exact I].
      + destruct (IH (h2, snd w1) c R2 A2) as (r & w' & D & X & R' & G & Q). cbn [fst] in *. exists r, w'. split; [exact D|]. split; [eapply ex_made; eauto|]. split; [exact R'|].
        split; [eapply grown_trans; eauto|]. destruct r; auto. destruct (grown_child _ _ t vw2 i c G E2 N2) as (vw' & E' & _ & N'). eapply des_down; eauto.
      + exists (Err ERR_INVALID_TREE), w1. split; [reflexivity|]. split; [eapply ex_owned; eauto|]. split; [exact R1|]. split; [now apply keeps_grown|exact I].
      + exists (Err ERR_INVALID_OBJECT), w1. split; [reflexivity|]. split; [eapply ex_nothing; eauto|]. split; [exact R1|]. split; [now apply keeps_grown|exact I].
      + exists (Err e), w1. split; [reflexivity|]. split; [eapply ex_failed; eauto|]. split; [exact R1|]. split; [now apply keeps_grown|exact I].
  Qed.

  (** What is there is found without asking *)
  Lemma dyn_node_there w t l d : reached (fst w) -> designates (fst w) t l d -> dyn_node S v w t l = (Ok d, w).
  Proof.
    intros R D. induction D as [t A|t vw i c l d E N D IH]; [reflexivity|]. cbn [dyn_node]. destruct (always_forest _ R t vw E) as (L & _).
    unfold dyn_child. rewrite (get_child_view _ t vw i E L), N. exact IH.
  Qed.

  Lemma strays_here h t vw i l : seen h t = Some vw -> (v_arity vw <= i)%nat -> strays h t (i :: l).
  Proof. intros E L. exists [], i, l, t, vw. split; [reflexivity|]. split; [constructor; unfold alive; congruence|auto]. Qed.
  Lemma strays_down h t vw i c l : forest h -> seen h t = Some vw -> nth_error (v_children vw) i = Some (Some c) -> (strays h t (i :: l) <-> strays h c l).
  Proof.
    intros F E N. split.
    - intros (l1 & j & l2 & d & vd & Q & D & Ed & L). destruct l1 as [|a l1]; cbn in Q; injection Q as -> ->.
      + inversion D; subst. assert (vd = vw) by congruence. subst. destruct (F d vw E) as (LL & _). assert (j < length (v_children vw))%nat by (apply nth_error_Some; congruence). lia.
      + inversion D as [|? vt ? c' ? ? Et Nt D']; subst. assert (vt = vw) by congruence. subst. assert (c' = c) by congruence. subst.
        exists l1, j, l2, d, vd. auto.
    - intros (l1 & j & l2 & d & vd & -> & D & Ed & L). exists (i :: l1), j, l2, d, vd. split; [reflexivity|]. split; [eapply des_down; eauto|auto].
  Qed.
  Lemma strays_missing h t vw i l : forest h -> seen h t = Some vw -> nth_error (v_children vw) i = Some None -> ~ strays h t (i :: l).
  Proof.
    intros F E N (l1 & j & l2 & d & vd & Q & D & Ed & L). destruct l1 as [|a l1]; cbn in Q; injection Q as -> ->.
    - inversion D; subst. assert (vd = vw) by congruence. subst. destruct (F d vw E) as (LL & _). assert (j < length (v_children vw))%nat by (apply nth_error_Some; congruence). lia.
    - inversion D as [|? vt ? c' ? ? Et Nt D']; subst. congruence.
  Qed.

  Lemma dyn_check_node l : forall w t, reached (fst w) -> alive (fst w) t ->
    match dyn_node S v w t l with
    | (r, w') =>
        (strays (fst w') t l <-> dyn_check S v w t l = (Ok false, w')) /\
        match r with
        | Ok _ => dyn_check S v w t l = (Ok true, w')
        | Err e => dyn_check S v w t l = ((Ok false, w')) \/ (dyn_check S v w t l = (Err e, w') /\ ~ strays (fst w') t l)
        | UB _ => False
        end
    end.
  Proof.
    induction l as [|i l IH]; intros w t R A.
    - cbn. split; [|reflexivity]. split; [|discriminate]. intros (l1 & j & l2 & d & vd & Q & _). destruct l1; discriminate.
    - unfold alive in A. destruct (seen (fst w) t) as [vw|] eqn:E; [|congruence]. pose proof (always_forest _ R) as F.
      cbn [dyn_node dyn_check]. pose proof E as E0. apply seen_node in E0 as (n & En & Vn). rewrite (read_node _ _ _ En).
      assert (Ar : n_arity n = v_arity vw) by (rewrite Vn; reflexivity). rewrite Ar.
      assert (LT : forall x, nth_error (v_children vw) i = Some x -> (v_arity vw <=? i)%nat = false).
      { intros x N. destruct (F t vw E) as (LL & _). assert (i < length (v_children vw))%nat by (apply nth_error_Some; congruence). apply Nat.leb_gt. lia. }
      destruct (dyn_child_cases w t i vw R E) as [(c & N & AC & ->)|[[N ->]|(N & r & w1 & T & R1 & K & [(c & h2 & -> & O & R2 & G2 & A2 & (vw2 & E2 & Ar2 & N2) & ->)|[(c & u & p & -> & Eu & Pu & ->)|[[-> ->]|(e & -> & ->)]]])]].
      + rewrite (LT _ N). pose proof (dyn_node_explores l w c R AC) as (r & w' & D & X & R' & G & Q). specialize (IH w c R AC). rewrite D in *.
        destruct (grown_child _ _ t vw i c G E N) as (vw' & E' & _ & N'). pose proof (strays_down (fst w') t vw' i c l (always_forest _ R') E' N') as SD.
        destruct IH as [I1 I2]. rewrite SD. split; [exact I1|]. destruct r as [d|e|]; [exact I2| |exact I2]. destruct I2 as [I2|[I2 NS]]; [now left|right; split; [exact I2|now rewrite SD]].
      + rewrite (proj2 (Nat.leb_le _ _) N). split; [|now left]. split; [reflexivity|]. intros _. eapply strays_here; eauto.
      + rewrite (LT _ N). pose proof (dyn_node_explores l (h2, snd w1) c R2 A2) as (r & w' & D & X & R' & G & Q). specialize (IH (h2, snd w1) c R2 A2). rewrite D in *. cbn [fst] in *.
        destruct (grown_child _ _ t vw2 i c G E2 N2) as (vw' & E' & _ & N'). pose proof (strays_down (fst w') t vw' i c l (always_forest _ R') E' N') as SD.
        destruct IH as [I1 I2]. rewrite SD. split; [exact I1|]. destruct r as [d|e|]; [exact I2| |exact I2]. destruct I2 as [I2|[I2 NS]]; [now left|right; split; [exact I2|now rewrite SD]].
      + rewrite (LT _ N). assert (NS : ~ strays (fst w1) t (i :: l)) by (apply (strays_missing _ t vw); [now apply always_forest|rewrite K; [exact E|unfold alive; congruence]|exact N]).
        split; [|right; split; [reflexivity|exact NS]]. split; [contradiction|discriminate].
      + rewrite (LT _ N). assert (NS : ~ strays (fst w1) t (i :: l)) by (apply (strays_missing _ t vw); [now apply always_forest|rewrite K; [exact E|unfold alive; congruence]|exact N]).
        split; [|right; split; [reflexivity|exact NS]]. split; [contradiction|discriminate].
      + rewrite (LT _ N). assert (NS : ~ strays (fst w1) t (i :: l)) by (apply (strays_missing _ t vw); [now apply always_forest|rewrite K; [exact E|unfold alive; congruence]|exact N]).
        split; [|right; split; [reflexivity|exact NS]]. split; [contradiction|discriminate].
  Qed.

  Lemma along_head h t l vs : values_along h t l vs -> exists vw l', seen h t = Some vw /\ vs = v_value vw :: l' /\ length l' = length l.
  Proof. induction 1 as [t vw E|t vw i c l ds E N A IH]; [exists vw, []; auto|]. exists vw, ds. split; [exact E|]. split; [reflexivity|]. destruct IH as (? & l' & _ & -> & L). cbn. now rewrite L. Qed.
  Lemma dyn_values_node l : forall w t vw, reached (fst w) -> seen (fst w) t = Some vw ->
    match dyn_node S v w t l with
    | (r, w') =>
        match r with
        | Ok _ => exists vs, values_along (fst w') t l (v_value vw :: vs) /\ dyn_values_loop S v w t l = (Ok vs, w')
        | Err e => dyn_values_loop S v w t l = (Err e, w')
        | UB _ => False
        end
    end.
  Proof.
    induction l as [|i l IH]; intros w t vw R E.
    - cbn. exists []. split; [now constructor|reflexivity].
    - pose proof (always_forest _ R) as F. cbn [dyn_node dyn_values_loop].
      destruct (dyn_child_cases w t i vw R E) as [(c & N & AC & ->)|[[N ->]|(N & r & w1 & T & R1 & K & [(c & h2 & -> & O & R2 & G2 & A2 & (vw2 & E2 & Ar2 & N2) & ->)|[(c & u & p & -> & Eu & Pu & ->)|[[-> ->]|(e & -> & ->)]]])]]; try reflexivity.
      + unfold alive in AC. destruct (seen (fst w) c) as [vc|] eqn:Ec; [|congruence]. pose proof Ec as E0. apply seen_node in E0 as (n & En & Vn). rewrite (read_node _ _ _ En).
        pose proof (dyn_node_explores l w c R ltac:(unfold alive; congruence)) as (r & w' & D & X & R' & G & Q). specialize (IH w c vc R Ec). rewrite D in *.
        destruct r as [d|e|]; [|now rewrite IH|contradiction]. destruct IH as (vs & VA & ->). exists (n_value n :: vs). split; [|reflexivity].
        replace (n_value n) with (v_value vc) by (rewrite Vn; reflexivity).
        destruct (G t vw E) as (lt & Et & Ft). destruct (grown_child _ _ t vw i c G E N) as (vw' & E' & _ & N'). assert (vw' = v_with_children vw lt) by congruence. subst vw'.
        change (v_value vw) with (v_value (v_with_children vw lt)). eapply along_down; eauto.
      + cbn [fst]. destruct (seen h2 c) as [vc|] eqn:Ec; [|congruence]. pose proof Ec as E0. apply seen_node in E0 as (n & En & Vn). rewrite (read_node _ _ _ En).
        pose proof (dyn_node_explores l (h2, snd w1) c R2 ltac:(unfold alive; cbn; congruence)) as (r & w' & D & X & R' & G & Q). specialize (IH (h2, snd w1) c vc R2 Ec). rewrite D in *. cbn [fst] in *.
        destruct r as [d|e|]; [|now rewrite IH|contradiction]. destruct IH as (vs & VA & ->). exists (n_value n :: vs). split; [|reflexivity].
        replace (n_value n) with (v_value vc) by (rewrite Vn; reflexivity).
        assert (G' : grown (fst w) (fst w')) by (eapply grown_trans; eauto).
        destruct (G' t vw E) as (lt & Et & Ft). destruct (grown_child _ _ t vw2 i c G E2 N2) as (vw' & E' & _ & N'). assert (vw' = v_with_children vw lt) by congruence. subst vw'.
        change (v_value vw) with (v_value (v_with_children vw lt)). eapply along_down; eauto.
  Qed.

  Lemma dyn_node_app w t l d k : reached (fst w) -> designates (fst w) t l d -> dyn_node S v w t (l ++ k) = dyn_node S v w d k.
  Proof.
    intros R D. induction D as [t A|t vw i c l d E N D IH]; [reflexivity|]. cbn [dyn_node app]. destruct (always_forest _ R t vw E) as (L & _).
    unfold dyn_child. rewrite (get_child_view _ t vw i E L), N. exact IH.
  Qed.
  Lemma check_of_node w t l d w' : reached (fst w) -> alive (fst w) t -> dyn_node S v w t l = (Ok d, w') -> dyn_check S v w t l = (Ok true, w').
  Proof. intros R A D. pose proof (dyn_check_node l w t R A) as C. rewrite D in C. apply C. Qed.
  Lemma dyn_sampled w t fuel us l rest : generous S v -> reached (fst w) -> alive (fst w) t -> walk fuel (fst w) t us = Ok (l, rest) ->
    exists d w', dyn_node S v w t l = (Ok d, w') /\ dyn_check S v w t l = (Ok true, w').
  Proof.
    intros GV R A W. destruct (walks _ _ _ _ _ _ R A W) as (_ & [(d & G)|(l' & i & d & vw & -> & D & E & N)] & _).
    - destruct (node_found _ t l R A) as [(d' & Q & G')|[[G' Q]|[G' Q]]]; try congruence.
      assert (DN : dyn_node S v w t l = (Ok d', w)) by (apply dyn_node_there; assumption). exists d', w. split; [exact DN|]. now apply (check_of_node w t l d').
    - assert (X : exists c w', dyn_node S v w t (l' ++ [i]) = (Ok c, w')).
      { rewrite (dyn_node_app w t l' d [i] R D). cbn [dyn_node]. destruct (GV w d i vw R E N) as (c0 & w0 & T0 & (v0 & E0 & P0)).
        destruct (dyn_child_cases w d i vw R E) as [(c & N' & _)|[[N' _]|(_ & r & w1 & T & R1 & K & [(c & h2 & -> & O & R2 & G2 & A2 & _ & ->)|[(c & u & p & -> & Eu & Pu & _)|[[-> _]|(e & -> & _)]]])]]; try congruence.
        - destruct (always_forest _ R d vw E) as (L & _). assert (i < length (v_children vw))%nat by (apply nth_error_Some; congruence). lia.
        - eauto. }
      destruct X as (c & w' & X). exists c, w'. split; [exact X|]. now apply (check_of_node w t _ c).
  Qed.
End Dyn.

Lemma along_det h t l vs : values_along h t l vs -> forall vs', values_along h t l vs' -> vs = vs'.
Proof.
  induction 1 as [t vw E|t vw i c l ds E N A IH]; intros vs' A'; inversion A'; subst.
  - congruence.
  - assert (v = vw) by congruence. subst. f_equal. apply IH. match goal with H : nth_error _ _ = Some (Some ?c') |- _ => assert (c' = c) by congruence; subst; assumption end.
Qed.
Lemma fill_ok {X} (pad : X) size l : (length l <= size)%nat -> fill pad size l = Ok (l ++ repeat pad (size - length l)).
Proof. intro L. unfold fill. destruct (Nat.ltb_spec size (length l)); [lia|reflexivity]. Qed.

(** ** At the level of spaces *)
Section Spaces.
  Variable S : Type.
  Variables (v : tvector S) (h : heap) (sp : tspace S) (st : S).
  Hypothesis R : reached h.
  Hypothesis A : alive h (ts_tree S sp).
  Lemma with_state_same : ts_kind S sp = KDynamic S v st -> with_state S sp v st = sp.
  Proof. intro K. unfold with_state. rewrite <- K. now destruct sp. Qed.
  Lemma space_explores l : behaves S v -> ts_kind S sp = KDynamic S v st ->
    exists r h' st', space_node S h sp l = (r, (h', with_state S sp v st')) /\ explores S v (h, st) (ts_tree S sp) l r (h', st') /\
      reached h' /\ grown h h' /\ match r with Ok d => designates h' (ts_tree S sp) l d | Err _ => True | UB _ => False end.
  Proof.
    intros B K. destruct (dyn_node_explores S v B l (h, st) (ts_tree S sp) R A) as (r & [h' st'] & D & X & R' & G & Q). exists r, h', st'.
    unfold space_node, lift. rewrite K, D. auto.
  Qed.
  Lemma space_there l d vs : designates h (ts_tree S sp) l d -> values_along h (ts_tree S sp) l vs ->
    ts_kind S sp = KDynamic S v st -> behaves S v ->
    space_node S h sp l = (Ok d, (h, sp)) /\ space_check S h sp l = (Ok true, (h, sp)) /\
    forall size, (length l < size)%nat -> space_values S h sp l size = (Ok (vs ++ repeat ccs_none (size - length vs)), (h, sp)).
  Proof.
    intros D VA K B. pose proof (dyn_node_there S v (h, st) (ts_tree S sp) l d R D) as DN. unfold space_node, space_check, space_values, lift. rewrite K.
    split; [rewrite DN; now rewrite with_state_same|]. split.
    - rewrite (check_of_node S v B (h, st) _ l d (h, st) R A DN). now rewrite with_state_same.
    - intros size LS. unfold dyn_values. destruct (Nat.ltb_spec size (length l + 1)); [lia|].
      pose proof A as A'. unfold alive in A'. destruct (seen h (ts_tree S sp)) as [vw|] eqn:E; [|congruence].
      pose proof (dyn_values_node S v B l (h, st) (ts_tree S sp) vw R E) as V. rewrite DN in V. destruct V as (vs' & VA' & ->).
      cbn [fst]. pose proof E as E0. apply seen_node in E0 as (n & En & Vn). rewrite (read_node _ _ _ En).
      replace (n_value n) with (v_value vw) by (rewrite Vn; reflexivity).
      assert (Q : v_value vw :: vs' = vs) by (eapply along_det; eauto). rewrite Q. rewrite with_state_same by exact K.
      rewrite fill_ok; [reflexivity|]. rewrite (along_length _ _ _ _ VA). lia.
  Qed.
  Lemma space_checks l : behaves S v -> ts_kind S sp = KDynamic S v st ->
    exists b r h' st', explores S v (h, st) (ts_tree S sp) l r (h', st') /\ reached h' /\ grown h h' /\
      space_check S h sp l = (b, (h', with_state S sp v st')) /\
      ((exists d, r = Ok d /\ b = Ok true) \/ (strays h' (ts_tree S sp) l /\ b = Ok false) \/
       (exists e, r = Err e /\ ~ strays h' (ts_tree S sp) l /\ b = Err e)).
  Proof.
    intros B K. destruct (dyn_node_explores S v B l (h, st) (ts_tree S sp) R A) as (r & [h' st'] & D & X & R' & G & Q).
    pose proof (dyn_check_node S v B l (h, st) (ts_tree S sp) R A) as C. rewrite D in C. cbn [fst] in *. destruct C as [C1 C2].
    unfold space_check, lift. rewrite K. destruct r as [d|e|]; [| |contradiction].
    - rewrite C2. exists (Ok true), (Ok d), h', st'. repeat (split; [assumption|]). split; [reflexivity|]. left. eauto.
    - destruct C2 as [C2|[C2 NS]]; rewrite C2.
      + exists (Ok false), (Err e), h', st'. repeat (split; [assumption|]). split; [reflexivity|]. right. left. split; [now apply C1|reflexivity].
      + exists (Err e), (Err e), h', st'. repeat (split; [assumption|]). split; [reflexivity|]. right. right. eauto.
  Qed.
  Lemma space_gives l size : behaves S v -> ts_kind S sp = KDynamic S v st ->
    ((size <= length l)%nat /\ space_values S h sp l size = (Err ERR_INVALID_VALUE, (h, sp))) \/
    ((length l < size)%nat /\ exists r h' st', explores S v (h, st) (ts_tree S sp) l r (h', st') /\ reached h' /\ grown h h' /\
      match r with
      | Ok _ => exists vs, values_along h' (ts_tree S sp) l vs /\
                  space_values S h sp l size = (Ok (vs ++ repeat ccs_none (size - length vs)), (h', with_state S sp v st'))
      | Err e => space_values S h sp l size = (Err e, (h', with_state S sp v st'))
      | UB _ => False
      end).
  Proof.
    intros B K. unfold space_values, lift, dyn_values. rewrite K. destruct (Nat.ltb_spec size (length l + 1)).
    - left. split; [lia|]. now rewrite with_state_same.
    - right. split; [lia|]. pose proof A as A'. unfold alive in A'. destruct (seen h (ts_tree S sp)) as [vw|] eqn:E; [|congruence].
      destruct (dyn_node_explores S v B l (h, st) (ts_tree S sp) R A) as (r & [h' st'] & D & X & R' & G & Q).
      pose proof (dyn_values_node S v B l (h, st) (ts_tree S sp) vw R E) as V. rewrite D in V. cbn [fst] in *.
      pose proof E as E0. apply seen_node in E0 as (n & En & Vn). rewrite (read_node _ _ _ En).
      exists r, h', st'. repeat (split; [assumption|]). destruct r as [d|e|]; [|now rewrite V|contradiction].
      destruct V as (vs & VA & ->). exists (v_value vw :: vs). split; [exact VA|].
      replace (n_value n) with (v_value vw) by (rewrite Vn; reflexivity). rewrite fill_ok; [reflexivity|]. rewrite (along_length _ _ _ _ VA). lia.
  Qed.
  Lemma space_again l d h' sp' : behaves S v -> ts_kind S sp = KDynamic S v st -> space_node S h sp l = (Ok d, (h', sp')) ->
    space_node S h' sp' l = (Ok d, (h', sp')) /\ space_check S h' sp' l = (Ok true, (h', sp')).
  Proof.
    intros B K. unfold space_node, space_check, lift. rewrite K. destruct (dyn_node_explores S v B l (h, st) (ts_tree S sp) R A) as (r & [h1 st1] & D & X & R' & G & Q).
    rewrite D. intro Y. injection Y as -> <- <-. cbn [ts_kind with_state ts_tree fst] in *.
    pose proof (dyn_node_there S v (h1, st1) (ts_tree S sp) l d R' Q) as DN. rewrite DN.
    assert (A' : alive h1 (ts_tree S sp)). { unfold alive in *. destruct (seen h (ts_tree S sp)) as [vw|] eqn:E; [|congruence]. destruct (G _ _ E) as (x & E' & _). congruence. }
    rewrite (check_of_node S v B (h1, st1) _ l d (h1, st1) R' A' DN). auto.
  Qed.
  Lemma space_sampled fuel us l rest : behaves S v -> generous S v -> ts_kind S sp = KDynamic S v st -> walk fuel h (ts_tree S sp) us = Ok (l, rest) ->
    exists h' sp', space_check S h sp l = (Ok true, (h', sp')) /\ exists d, space_node S h sp l = (Ok d, (h', sp')).
  Proof.
    intros B GV K W. destruct (dyn_sampled S v B (h, st) _ fuel us l rest GV R A W) as (d & [h' st'] & D & C).
    unfold space_node, space_check, lift. rewrite K, D, C. eauto.
  Qed.
End Spaces.
Lemma dangling_not_strays h t l : forest h -> dangling h t l -> ~ strays h t l.
Proof.
  intros F (l' & i & d & vw & -> & D & E & N). induction D as [t A|t v0 j c l' d E0 N0 D IH]; cbn [app].
  - now apply (strays_missing h t vw).
  - rewrite (strays_down h t v0 j c (l' ++ [i]) F E0 N0). now apply IH.
Qed.
Lemma breaks_not_strays h t l : forest h -> breaks h t l -> ~ strays h t l.
Proof.
  intros F (l1 & l2 & -> & (l' & i & d & vw & -> & D & E & N)). induction D as [t A|t v0 j c l' d E0 N0 D IH]; cbn [app].
  - now apply (strays_missing h t vw).
  - rewrite (strays_down h t v0 j c ((l' ++ [i]) ++ l2) F E0 N0). now apply IH.
Qed.
Lemma static_space S h (sp : tspace S) l size : reached h -> alive h (ts_tree S sp) -> ts_kind S sp = KStatic S ->
  exists n b vs, space_node S h sp l = (n, (h, sp)) /\ space_check S h sp l = (Ok b, (h, sp)) /\ space_values S h sp l size = (vs, (h, sp)) /\
    ((exists d ds, designates h (ts_tree S sp) l d /\ values_along h (ts_tree S sp) l ds /\ n = Ok d /\ b = true /\
        vs = if (length l <? size)%nat then Ok (ds ++ repeat ccs_none (size - length ds)) else Err ERR_INVALID_VALUE) \/
     (breaks h (ts_tree S sp) l /\ n = Err ERR_INVALID_TREE /\ (b = true <-> dangling h (ts_tree S sp) l) /\
        vs = if (length l <? size)%nat then Err ERR_INVALID_TREE else Err ERR_INVALID_VALUE) \/
     (strays h (ts_tree S sp) l /\ n = Err ERR_OUT_OF_BOUNDS /\ b = false /\
        vs = if (length l <? size)%nat then Err ERR_OUT_OF_BOUNDS else Err ERR_INVALID_VALUE)).
Proof.
  intros R A K. pose proof (always_forest _ R) as F. destruct (valid_positions h (ts_tree S sp) l R A) as (b & V & B).
  exists (get_node_at_position h (ts_tree S sp) l), b, (get_values_at_position h (ts_tree S sp) l size).
  unfold space_node, space_check, space_values, lift. rewrite K, V. split; [reflexivity|]. split; [reflexivity|]. split; [reflexivity|].
  destruct (values_found h (ts_tree S sp) l size R A) as [[L ->]|[L VF]].
  - rewrite (proj2 (Nat.ltb_ge _ _) L). destruct (node_found h (ts_tree S sp) l R A) as [(d & E & D)|[[E D]|[E D]]].
    + left. destruct (along_exists h _ l d D) as (ds & VA). exists d, ds. repeat (split; [assumption|]). split; [apply B; eauto|reflexivity].
    + right. left. split; [exact D|]. split; [exact E|]. split; [|reflexivity]. rewrite B. split; [intros [(d & X)|X]; [congruence|exact X]|now right].
    + right. right. split; [exact D|]. split; [exact E|]. split; [|reflexivity]. destruct b; [|reflexivity].
      destruct (proj1 B eq_refl) as [(d & X)|X]; [congruence|]. exfalso. now apply (dangling_not_strays h _ l F X).
  - rewrite (proj2 (Nat.ltb_lt _ _) L). destruct (node_found h (ts_tree S sp) l R A) as [(d & E & D)|[[E D]|[E D]]].
    + left. destruct VF as [(vs & VA & ->)|[[X _]|[X _]]]; [|now apply des_not_break in D|now apply (des_not_stray _ _ _ _ F) in D].
      exists d, vs. repeat (split; [assumption|]). split; [apply B; eauto|reflexivity].
    + right. left. split; [exact D|]. split; [exact E|]. split; [rewrite B; split; [intros [(d & X)|X]; [congruence|exact X]|now right]|].
      destruct VF as [(vs & VA & ->)|[[X ->]|[X ->]]]; [|reflexivity|now apply (breaks_not_strays h _ l F) in D].
      exfalso. clear -VA D. revert D. induction VA as [t vw E|t vw i c l ds E N VA IH]; intros (l1 & l2 & Q & (l' & j & d & v' & -> & D & E' & N')).
      * destruct l'; discriminate.
      * destruct l' as [|a l']; cbn in Q; injection Q as <- ->; inversion D; subst; [congruence|].
        apply IH. exists (l' ++ [j]), l2. split; [reflexivity|]. exists l', j, d, v'. split; [reflexivity|]. split; [|auto].
        match goal with H : designates h ?c' l' d |- _ => assert (Q : c' = c) by congruence; rewrite <- Q; exact H end.
    + right. right. split; [exact D|]. split; [exact E|].
      split; [destruct b; [|reflexivity]; destruct (proj1 B eq_refl) as [(d & X)|X]; [congruence|]; exfalso; now apply (dangling_not_strays h _ l F X)|].
      destruct VF as [(vs & VA & ->)|[[X ->]|[X ->]]]; [|now apply (breaks_not_strays h _ l F) in X|reflexivity].
      exfalso. clear -VA D F. revert D. induction VA as [t vw E|t vw i c l ds E N VA IH]; intro SD.
      * destruct SD as (l1 & j & l2 & d & v' & Q & _). destruct l1; discriminate.
      * apply IH. now apply (strays_down h t vw i c l F E N).
Qed.
