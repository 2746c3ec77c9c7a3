(** The state of the error stacks follows from what was called. *)
From Coq Require Import ZArith List Bool Lia.
From Verif Require Import Base ErrorStackModel ErrorStackSpec.
Import ListNotations.
Open Scope Z_scope.

Lemma set_nth_length : forall A (l : list A) i x, length (set_nth l i x) = length l.
Proof. induction l; intros [|i] x; cbn; auto. Qed.
Lemma set_nth_at : forall A (l : list A) i x, (i < length l)%nat -> nth_error (set_nth l i x) i = Some x.
Proof. induction l; intros [|i] x L; cbn in *; try lia; auto. apply IHl. lia. Qed.
Lemma set_nth_off : forall A (l : list A) i j x, i <> j -> nth_error (set_nth l i x) j = nth_error l j.
Proof. induction l; intros [|i] [|j] x N; cbn; auto; try congruence. Qed.

Definition look (s : st) (h : handle) : option object :=
  match nth_error (s_objs s) h with Some (Some o) => Some o | _ => None end.
Lemma look_lt : forall s h o, look s h = Some o -> (h < length (s_objs s))%nat.
Proof. intros s h o L. unfold look in L. apply nth_error_Some. destruct (nth_error (s_objs s) h); congruence. Qed.
Lemma look_put : forall s h x k, (h < length (s_objs s))%nat -> look (put s h x) k = if Nat.eqb h k then x else look s k.
Proof.
  intros s h x k L. unfold look, put. cbn [s_objs]. destruct (Nat.eqb_spec h k) as [->|N].
  - rewrite set_nth_at by auto. now destruct x.
  - now rewrite set_nth_off.
Qed.
Lemma look_deref : forall s h o, look s h = Some o -> deref s h = Ok o.
Proof. intros s h o L. unfold look, deref in *. destruct (nth_error (s_objs s) h) as [[p|]|]; congruence. Qed.

(** ** What is seen *)
Record view := mkView {
  w_cur : thread -> option handle; w_refs : handle -> Z; w_made : handle -> option (option (Z * list Z));
  w_elems : handle -> list elem; w_spoiled : handle -> bool }.
Definition seen (l : trace) : view := mkView (current l) (references l) (made l) (elements l) (spoiled l).
Definition weq (w w' : view) : Prop :=
  (forall t, w_cur w t = w_cur w' t) /\ (forall h, w_refs w h = w_refs w' h) /\ (forall h, w_made w h = w_made w' h) /\
  (forall h, w_elems w h = w_elems w' h) /\ (forall h, w_spoiled w h = w_spoiled w' h).

Definition matches (w : view) (h : handle) (b : option stack) : Prop :=
  match w_made w h with
  | Some (Some (c, m)) => exists n room, b = Some (mkStack c m (w_elems w h) n room) /\
      (length (w_elems w h) <= room)%nat /\ (w_spoiled w h = false -> n = room)
  | _ => b = None
  end.
Record rep (n : nat) (s : st) (w : view) : Prop := {
  r_len : length (s_current s) = n;
  r_cur : forall t, get_current s t = w_cur w t;
  r_obj : forall h, (w_refs w h = 0 /\ look s h = None) \/
                    (0 < w_refs w h /\ exists b, look s h = Some (mkObject (w_refs w h) b) /\ matches w h b);
  r_new : forall h, (length (s_objs s) <= h)%nat ->
            w_refs w h = 0 /\ w_made w h = None /\ w_elems w h = [] /\ w_spoiled w h = false }.

Lemma rep_ext : forall n s w w', weq w w' -> rep n s w -> rep n s w'.
Proof.
  intros n s w w' (E1 & E2 & E3 & E4 & E5) R. constructor.
  - apply R.
  - intros t. rewrite <- E1. apply R.
  - intros h. rewrite <- E2. destruct (r_obj _ _ _ R h) as [|(P & b & L & M)]; [now left|right]. split; auto. exists b. split; auto.
    unfold matches in *. rewrite <- E3, <- E4, <- E5. exact M.
  - intros h G. rewrite <- E2, <- E3, <- E4, <- E5. now apply (r_new _ _ _ R).
Qed.
Lemma rep_mem : forall n s w m, rep n s w -> rep n (mkSt (s_objs s) (s_current s) m) w.
Proof. intros n s w m R. destruct R. constructor; auto. Qed.
Lemma rep_bound : forall n s w t, rep n s w -> (n <= t)%nat -> w_cur w t = None.
Proof.
  intros n s w t R G. rewrite <- (r_cur _ _ _ R t). unfold get_current.
  assert (E : nth_error (s_current s) t = None) by (apply nth_error_None; rewrite (r_len _ _ _ R); auto). now rewrite E.
Qed.
Lemma rep_live : forall n s w h, rep n s w -> 0 < w_refs w h ->
  exists b, look s h = Some (mkObject (w_refs w h) b) /\ matches w h b.
Proof. intros n s w h R P. destruct (r_obj _ _ _ R h) as [(E & _)|(_ & X)]; [lia|auto]. Qed.

Definition plus (f : handle -> Z) (h : handle) (d : Z) : handle -> Z := fun k => f k + d * one (Nat.eqb h k).

Lemma rep_refs : forall n s w h b r, rep n s w -> look s h = Some (mkObject (w_refs w h) b) -> matches w h b -> 0 < r ->
  rep n (put s h (Some (mkObject r b))) (mkView (w_cur w) (plus (w_refs w) h (r - w_refs w h)) (w_made w) (w_elems w) (w_spoiled w)).
Proof.
  intros n s w h b r R L M P. pose proof (look_lt _ _ _ L) as Lt. constructor; cbn [w_cur w_refs w_made w_elems w_spoiled].
  - apply R.
  - apply R.
  - intros k. rewrite look_put by auto. unfold plus. destruct (Nat.eqb_spec h k) as [<-|N]; cbn [one].
    + right. split; [lia|]. exists b. split; [repeat f_equal; lia|exact M].
    + rewrite Z.mul_0_r, Z.add_0_r. apply (r_obj _ _ _ R k).
  - intros k G. cbn [put s_objs] in G. rewrite set_nth_length in G. destruct (r_new _ _ _ R k G) as (A & B). split; auto.
    unfold plus. destruct (Nat.eqb_spec h k); [lia|]. cbn [one]. lia.
Qed.
Lemma rep_gone : forall n s w h, rep n s w -> w_refs w h = 1 ->
  rep n (put s h None) (mkView (w_cur w) (plus (w_refs w) h (-1)) (w_made w) (w_elems w) (w_spoiled w)).
Proof.
  intros n s w h R E. destruct (rep_live _ _ _ h R ltac:(lia)) as (b & L & M). pose proof (look_lt _ _ _ L) as Lt.
  constructor; cbn [w_cur w_refs w_made w_elems w_spoiled].
  - apply R.
  - apply R.
  - intros k. rewrite look_put by auto. unfold plus. destruct (Nat.eqb_spec h k) as [<-|N]; cbn [one].
    + left. split; [lia|reflexivity].
    + rewrite Z.mul_0_r, Z.add_0_r. apply (r_obj _ _ _ R k).
  - intros k G. cbn [put s_objs] in G. rewrite set_nth_length in G. destruct (r_new _ _ _ R k G) as (A & B). split; auto.
    unfold plus. destruct (Nat.eqb_spec h k); [lia|]. cbn [one]. lia.
Qed.

Definition drop_ref (w : view) (h : handle) : view := mkView (w_cur w) (plus (w_refs w) h (-1)) (w_made w) (w_elems w) (w_spoiled w).
Lemma rep_release : forall n s w h, rep n s w -> 0 < w_refs w h ->
  exists s1, release s h = Ok (CCS_RESULT_SUCCESS, s1) /\ rep n s1 (drop_ref w h) /\ s_mem s1 = s_mem s /\
             length (s_objs s1) = length (s_objs s).
Proof.
  intros n s w h R P. destruct (rep_live _ _ _ h R P) as (b & L & M). unfold release. rewrite (look_deref _ _ _ L). cbn [bind b_ref b_stack].
  destruct (Z.leb_spec (w_refs w h) 0); [lia|]. destruct (Z.eqb_spec (w_refs w h - 1) 0) as [E|N].
  - eexists. split; [reflexivity|]. split; [apply rep_gone; auto; lia|]. split; auto. cbn. apply set_nth_length.
  - eexists. split; [reflexivity|]. split; [|split; [auto|cbn; apply set_nth_length]].
    eapply rep_ext; [|apply (rep_refs n s w h b (w_refs w h - 1) R L M); lia].
    repeat split; intros k; cbn; auto. f_equal. f_equal. lia.
Qed.
Lemma rep_retain : forall n s w h, rep n s w -> 0 < w_refs w h < INT32_MAX ->
  exists s1, retain s h = Ok (CCS_RESULT_SUCCESS, s1) /\
             rep n s1 (mkView (w_cur w) (plus (w_refs w) h 1) (w_made w) (w_elems w) (w_spoiled w)).
Proof.
  intros n s w h R P. destruct (rep_live _ _ _ h R ltac:(lia)) as (b & L & M). unfold retain. rewrite (look_deref _ _ _ L). cbn [bind b_ref b_stack].
  destruct (Z.leb_spec (w_refs w h) 0); [lia|]. destruct (Z.eqb_spec (w_refs w h) INT32_MAX) as [E|N]; [lia|].
  eexists. split; [reflexivity|].
  eapply rep_ext; [|apply (rep_refs n s w h b (w_refs w h + 1) R L M); lia].
  repeat split; intros k; cbn; auto. unfold plus. f_equal. f_equal. lia.
Qed.

Definition with_cur (w : view) (t : thread) (x : option handle) : view :=
  mkView (fun t' => if Nat.eqb t t' then x else w_cur w t') (w_refs w) (w_made w) (w_elems w) (w_spoiled w).
Lemma rep_current : forall n s w t x, rep n s w -> (t < n)%nat -> rep n (with_current s t x) (with_cur w t x).
Proof.
  intros n s w t x R L. constructor; cbn [w_cur w_refs w_made w_elems w_spoiled with_cur with_current s_objs s_current].
  - rewrite set_nth_length. apply R.
  - intros t'. unfold get_current. cbn [s_current with_current]. destruct (Nat.eqb_spec t t') as [<-|N].
    + now rewrite set_nth_at by (rewrite (r_len _ _ _ R); auto).
    + rewrite set_nth_off by auto. apply (r_cur _ _ _ R t').
  - apply R.
  - apply R.
Qed.

Definition with_new (w : view) (h : handle) (k : option (Z * list Z)) : view :=
  mkView (w_cur w) (plus (w_refs w) h 1) (fun h' => if Nat.eqb h h' then Some k else w_made w h') (w_elems w) (w_spoiled w).
Definition stack_of (k : option (Z * list Z)) : option stack :=
  match k with Some (c, m) => Some (mkStack c m [] 0 0) | None => None end.
Lemma rep_new : forall n s w k, rep n s w ->
  rep n (mkSt (s_objs s ++ [Some (mkObject 1 (stack_of k))]) (s_current s) (s_mem s)) (with_new w (length (s_objs s)) k).
Proof.
  intros n s w k R. constructor; cbn [w_cur w_refs w_made w_elems w_spoiled with_new s_objs s_current].
  - apply R.
  - intros t. apply (r_cur _ _ _ R t).
  - intros h. unfold look, plus, matches, with_new. cbn [s_objs w_made w_elems w_spoiled]. destruct (Nat.eqb_spec (length (s_objs s)) h) as [<-|N]; cbn [one].
    + destruct (r_new _ _ _ R _ (le_n _)) as (A & B & C & D). right. split; [lia|]. rewrite nth_error_app2, Nat.sub_diag by lia. cbn.
      exists (stack_of k). split; [repeat f_equal; lia|]. destruct k as [[c m]|]; [|reflexivity]. rewrite C. cbn [stack_of].
      exists 0%nat, 0%nat. repeat split; auto.
    + rewrite Z.mul_0_r, Z.add_0_r. destruct (Nat.lt_ge_cases h (length (s_objs s))) as [Lt|Ge].
      * rewrite nth_error_app1 by auto. apply (r_obj _ _ _ R h).
      * left. split; [apply (r_new _ _ _ R h Ge)|]. rewrite nth_error_app2 by auto.
        destruct (h - length (s_objs s))%nat as [|[|?]] eqn:Eh; cbn; auto. lia.
  - intros h G. rewrite app_length in G. cbn in G. destruct (r_new _ _ _ R h ltac:(lia)) as (A & B & C & D).
    unfold plus. destruct (Nat.eqb_spec (length (s_objs s)) h); [lia|]. cbn [one]. repeat split; auto. lia.
Qed.

Definition with_push (w : view) (h : handle) (e : elem) : view :=
  mkView (w_cur w) (w_refs w) (w_made w) (fun k => w_elems w k ++ (if Nat.eqb h k then [e] else [])) (w_spoiled w).
Definition with_spoil (w : view) (h : handle) : view :=
  mkView (w_cur w) (w_refs w) (w_made w) (w_elems w) (fun k => w_spoiled w k || Nat.eqb h k).

Lemma rep_put_stack : forall n s s' w h c m k cap room, rep n s w -> s_objs s' = s_objs s -> s_current s' = s_current s ->
  0 < w_refs w h -> w_made w h = Some (Some (c, m)) ->
  (length k <= room)%nat ->
  forall sp : bool, (sp = false -> cap = room) ->
  rep n (put s' h (Some (mkObject (w_refs w h) (Some (mkStack c m k cap room)))))
    (mkView (w_cur w) (w_refs w) (w_made w) (fun h' => if Nat.eqb h h' then k else w_elems w h')
            (fun h' => if Nat.eqb h h' then sp else w_spoiled w h')).
Proof.
  intros n s s' w h c m k cap room R E1 E2 P Mk Lk sp Sp. destruct (rep_live _ _ _ h R P) as (b & L & M).
  pose proof (look_lt _ _ _ L) as Lt. constructor; cbn [w_cur w_refs w_made w_elems w_spoiled].
  - cbn. rewrite E2. apply R.
  - intros t. unfold get_current. cbn. rewrite E2. apply (r_cur _ _ _ R t).
  - intros h'. rewrite look_put by (now rewrite E1). unfold matches. cbn [w_made w_elems w_spoiled].
    destruct (Nat.eqb_spec h h') as [<-|N].
    + right. split; auto. eexists. split; [reflexivity|]. rewrite Mk. exists cap, room. auto.
    + replace (look s' h') with (look s h') by (unfold look; now rewrite E1). apply (r_obj _ _ _ R h').
  - intros h' G. cbn [put s_objs] in G. rewrite set_nth_length, E1 in G. destruct (r_new _ _ _ R h' G) as (A & B & C & D).
    destruct (Nat.eqb_spec h h') as [<-|N]; [lia|]. auto.
Qed.

Definition ok_memory (s : st) (code answer : Z) : Prop := code = answer \/ (code = ERR_OUT_OF_MEMORY /\ s_mem s <> []).

Lemma rep_push : forall n s w h e c m, rep n s w -> 0 < w_refs w h -> w_made w h = Some (Some (c, m)) -> w_spoiled w h = false ->
  exists code s1, push s (Some h) e = Ok (code, s1) /\
    ((code = CCS_RESULT_SUCCESS /\ rep n s1 (with_push w h e) /\ (s_mem s = [] -> s_mem s1 = [])) \/
     (code = ERR_OUT_OF_MEMORY /\ s_mem s <> [] /\ rep n s1 (with_spoil w h))).
Proof.
  intros n s w h e c m R P Mk Sp. destruct (rep_live _ _ _ h R P) as (b & L & M). unfold matches in M. rewrite Mk in M.
  destruct M as (cap & room & -> & Le & Eq). specialize (Eq Sp). subst cap.
  unfold push, check_stack. rewrite (look_deref _ _ _ L). cbn [bind b_stack b_ref k_elems k_n k_room k_code k_msg].
  set (el := w_elems w h) in *.
  assert (Ok1 : forall s' cap' room', s_objs s' = s_objs s -> s_current s' = s_current s -> (length el < room')%nat -> cap' = room' ->
    rep n (put s' h (Some (mkObject (w_refs w h) (Some (mkStack c m (el ++ [e]) cap' room'))))) (with_push w h e)).
  { intros s' cap' room' E1 E2 Lr Ec. eapply rep_ext; [|eapply (rep_put_stack n s s' w h c m (el ++ [e]) cap' room' R E1 E2 P Mk) with (sp := false); auto].
    - repeat split; intros k; cbn; auto; destruct (Nat.eqb_spec h k) as [<-|N]; auto. now rewrite app_nil_r.
    - rewrite app_length. cbn. lia. }
  destruct (Nat.ltb_spec room (length el + 1)) as [F|F].
  - assert (G : (length el < grown room)%nat) by (unfold grown; destruct room; lia).
    unfold alloc. destruct (s_mem s) as [|[|] mem] eqn:Em.
    + destruct (Nat.ltb_spec (length el) (grown room)); [|lia]. eexists. eexists. split; [reflexivity|]. left.
      split; [reflexivity|]. split; [apply Ok1; auto|]. cbn. auto.
    + destruct (Nat.ltb_spec (length el) (grown room)); [|lia]. eexists. eexists. split; [reflexivity|]. left.
      split; [reflexivity|]. split; [apply Ok1; auto|]. discriminate.
    + eexists. eexists. split; [reflexivity|]. right. split; [reflexivity|]. split; [discriminate|].
      eapply rep_ext; [|eapply (rep_put_stack n s (mkSt (s_objs s) (s_current s) mem) w h c m el (grown room) room R eq_refl eq_refl P Mk Le) with (sp := true); discriminate].
      repeat split; intros k; cbn; auto; destruct (Nat.eqb_spec h k) as [<-|N]; rewrite ?orb_true_r, ?orb_false_r; auto.
  - destruct (Nat.ltb_spec (length el) room); [|lia]. eexists. eexists. split; [reflexivity|]. left. split; [reflexivity|]. split; [apply Ok1; auto|auto].
Qed.

(** ** Histories *)
Definition total (f : thread -> Z) (n : nat) : Z := fold_right (fun t r => f t + r) 0 (seq 0 n).
Lemma fold_ext : forall (f g : thread -> Z) l, (forall t, In t l -> f t = g t) ->
  fold_right (fun t r => f t + r) 0 l = fold_right (fun t r => g t + r) 0 l.
Proof. induction l as [|a l IH]; intros E; cbn; auto. rewrite (E a) by now left. rewrite IH; auto. intros; apply E; now right. Qed.
Lemma fold_upd : forall (f g : thread -> Z) t l, NoDup l -> In t l -> (forall t', t' <> t -> f t' = g t') ->
  fold_right (fun t r => g t + r) 0 l = fold_right (fun t r => f t + r) 0 l - f t + g t.
Proof.
  induction l as [|a l IH]; intros N I E; [easy|]. inversion N as [|? ? Na Nl]; subst. cbn. destruct I as [->|I].
  - rewrite (fold_ext g f l); [lia|]. intros t' I'. symmetry. apply E. congruence.
  - rewrite (IH Nl I E). rewrite (E a) by congruence. lia.
Qed.
Lemma total_upd : forall f g t n, (t < n)%nat -> (forall t', t' <> t -> f t' = g t') -> total g n = total f n - f t + g t.
Proof. intros. apply fold_upd; auto; [apply seq_NoDup|apply in_seq; lia]. Qed.
Lemma total_ext : forall f g n, (forall t, f t = g t) -> total f n = total g n.
Proof. intros. apply fold_ext; auto. Qed.
Lemma one_nonneg : forall b, 0 <= one b.
Proof. now destruct b. Qed.
Lemma total_ge : forall f t n, (t < n)%nat -> (forall t', 0 <= f t') -> f t <= total f n.
Proof.
  intros f t n L P. unfold total, thread in *. assert (I : In t (seq 0 n)) by (apply in_seq; lia).
  assert (Q : forall l, 0 <= fold_right (fun t r => f t + r) 0 l) by (induction l; cbn; [lia|specialize (P a); lia]).
  induction (seq 0 n) as [|a l IH]; [easy|]. cbn. destruct I as [->|I]; [specialize (Q l); lia|]. specialize (IH I). specialize (P a). lia.
Qed.
Lemma total_nonneg : forall f n, (forall t', 0 <= f t') -> 0 <= total f n.
Proof. intros f n P. unfold total. induction (seq 0 n); cbn; [lia|specialize (P a); lia]. Qed.

Definition hold (w : view) (n : nat) (h : handle) : Z := total (fun t => one (same (w_cur w t) h)) n.

Record inv (n : nat) (s : st) (w : view) : Prop := {
  i_rep : rep n s w;
  i_threads : forall h, hold w n h <= w_refs w h;
  i_stacks : forall t h, w_cur w t = Some h -> exists c m, w_made w h = Some (Some (c, m)) }.

Lemma inv_ext : forall n s w w', weq w w' -> inv n s w -> inv n s w'.
Proof.
  intros n s w w' E I. destruct E as (E1 & E2 & E3 & E4 & E5). constructor.
  - eapply rep_ext; [|apply I]. repeat split; auto.
  - intros h. rewrite <- E2. unfold hold. rewrite (total_ext _ (fun t => one (same (w_cur w t) h))); [apply I|]. intros t. now rewrite E1.
  - intros t h C. rewrite <- E3. rewrite <- E1 in C. eapply (i_stacks _ _ _ I); eauto.
Qed.
Lemma same_same : forall h, same (Some h) h = true.
Proof. intros. cbn. apply Nat.eqb_refl. Qed.
Lemma same_eq : forall x h, same x h = true -> x = Some h.
Proof. intros [k|] h E; cbn in E; [|discriminate]. apply Nat.eqb_eq in E. now subst. Qed.
Lemma inv_cur : forall n s w t h, inv n s w -> w_cur w t = Some h -> (t < n)%nat /\ 0 < w_refs w h.
Proof.
  intros n s w t h I C. destruct (Nat.lt_ge_cases t n) as [L|G].
  - split; auto. pose proof (i_threads _ _ _ I h) as H. unfold hold in H.
    pose proof (total_ge (fun t => one (same (w_cur w t) h)) t n L ltac:(intros; apply one_nonneg)) as T. cbv beta in T. rewrite C, same_same in T. cbn [one] in T. unfold thread in *. lia.
  - rewrite (rep_bound _ _ _ t (i_rep _ _ _ I) G) in C. discriminate.
Qed.

(** Replacing the error of a thread. *)
Lemma hold_upd : forall w n t x h, (t < n)%nat ->
  hold (with_cur w t x) n h = hold w n h - one (same (w_cur w t) h) + one (same x h).
Proof.
  intros w n t x h L. unfold hold. rewrite (total_upd (fun t => one (same (w_cur w t) h)) _ t n L).
  - cbn. now rewrite Nat.eqb_refl.
  - intros t' N. cbn. destruct (Nat.eqb_spec t t'); congruence.
Qed.

Definition dropped (w : view) (x : option handle) : view := match x with Some h => drop_ref w h | None => w end.
Lemma rep_drop : forall n s w t, inv n s w -> 
  exists s1, (match get_current s t with Some h => do r <- release s h; Ok (snd r) | None => Ok s end) = Ok s1 /\
    rep n s1 (dropped w (w_cur w t)) /\ s_mem s1 = s_mem s /\ length (s_objs s1) = length (s_objs s).
Proof.
  intros n s w t I. rewrite (r_cur _ _ _ (i_rep _ _ _ I)). destruct (w_cur w t) as [h|] eqn:C; cbn [dropped].
  - destruct (inv_cur _ _ _ _ _ I C) as (L & P). destruct (rep_release _ _ _ _ (i_rep _ _ _ I) P) as (s1 & -> & R & M & Z). exists s1. auto.
  - exists s. split; auto. split; [apply I|auto].
Qed.
Lemma refs_dropped : forall w x h, w_refs (dropped w x) h = w_refs w h - one (same x h).
Proof. intros w [k|] h; cbn; [unfold plus|]; lia. Qed.
Lemma inv_replace : forall n s w t x s', inv n s w -> (t < n)%nat ->
  (forall h, x = Some h -> hold w n h < w_refs w h /\ exists c m, w_made w h = Some (Some (c, m))) ->
  rep n s' (with_cur (dropped w (w_cur w t)) t x) ->
  inv n s' (with_cur (dropped w (w_cur w t)) t x).
Proof.
  intros n s w t x s' I L X R. constructor; auto.
  - intros h. rewrite hold_upd by auto. change (w_refs (with_cur (dropped w (w_cur w t)) t x) h) with (w_refs (dropped w (w_cur w t)) h).
    rewrite refs_dropped. assert (Cd : forall t', w_cur (dropped w (w_cur w t)) t' = w_cur w t') by (destruct (w_cur w t); auto).
    rewrite Cd. assert (Hd : hold (dropped w (w_cur w t)) n h = hold w n h) by (apply total_ext; intros; now rewrite Cd). rewrite Hd.
    pose proof (i_threads _ _ _ I h) as T. destruct (same x h) eqn:S; cbn [one]; [|lia].
    apply same_eq in S. destruct (X h S). lia.
  - intros t' h C. cbn in C. assert (Md : forall h, w_made (dropped w (w_cur w t)) h = w_made w h) by (destruct (w_cur w t); auto).
    cbn. rewrite Md. destruct (Nat.eqb t t').
    + now apply X.
    + assert (Cd : w_cur (dropped w (w_cur w t)) t' = w_cur w t') by (destruct (w_cur w t); auto). rewrite Cd in C. eapply (i_stacks _ _ _ I); eauto.
Qed.

Lemma create_ok : forall n s w c m, rep n s w ->
  exists code h s1, create_stack s c m = (code, h, s1) /\
   ((code = CCS_RESULT_SUCCESS /\ h = Some (length (s_objs s)) /\
     rep n s1 (with_new w (length (s_objs s)) (Some (c, match m with Some b => b | None => [] end))) /\ (s_mem s = [] -> s_mem s1 = [])) \/
    (code = ERR_OUT_OF_MEMORY /\ h = None /\ rep n s1 w /\ s_mem s <> [])).
Proof.
  intros n s w c m R. unfold create_stack.
  assert (N : forall mem, rep n (mkSt (s_objs s ++ [Some (mkObject 1 (Some (mkStack c (match m with Some b => b | None => [] end) [] 0 0)))]) (s_current s) mem)
              (with_new w (length (s_objs s)) (Some (c, match m with Some b => b | None => [] end)))).
  { intros mem. exact (rep_new n (mkSt (s_objs s) (s_current s) mem) w (Some (c, _)) (rep_mem _ _ _ mem R)). }
  unfold alloc. destruct (s_mem s) as [|[|] mem] eqn:Em; cbn [s_mem s_objs s_current].
  - rewrite Em. do 3 eexists. split; [reflexivity|]. left. split; [reflexivity|]. split; [reflexivity|]. split; [apply N|auto].
  - destruct mem as [|[|] mem']; cbn [s_mem s_objs s_current].
    + do 3 eexists. split; [reflexivity|]. left. split; [reflexivity|]. split; [reflexivity|]. split; [apply N|discriminate].
    + do 3 eexists. split; [reflexivity|]. left. split; [reflexivity|]. split; [reflexivity|]. split; [apply N|discriminate].
    + do 3 eexists. split; [reflexivity|]. right. split; [reflexivity|]. split; [reflexivity|]. split; [apply rep_mem, R|discriminate].
  - do 3 eexists. split; [reflexivity|]. right. split; [reflexivity|]. split; [reflexivity|]. split; [apply rep_mem, R|discriminate].
Qed.
