(** Expressions and configurations mean the same after parameters have moved. *)
From Coq Require Import ZArith List Bool Lia Relations.
From Verif Require Import Base Datum CmpModel CmpSpec ParamModel ParamSpec ContextModel ContextSpec ExprModel ExprSpec ExprProofs SpaceModel SpaceSpec SpaceLemmas SpaceReach.
Import ListNotations.
Open Scope Z_scope.

(** Parameters that differ in their default *)
Definition kin (p p' : param) : Prop := exists d, p' = with_default p d.
Definition okin (p p' : option param) : Prop :=
  match p, p' with Some p, Some p' => kin p p' | None, None => True | _, _ => False end.
Lemma kin_sym p p' : kin p p' -> kin p' p.
Proof. intros [d ->]. exists (p_default p). now destruct p. Qed.
Lemma okin_sym p p' : okin p p' -> okin p' p.
Proof. destruct p, p'; cbn; auto using kin_sym. Qed.
Lemma kin_admitted p p' v : okin p p' -> admitted p v -> admitted p' v.
Proof. destruct p as [p|], p' as [p'|]; try contradiction; [|auto]. intros [d ->]. exact (fun H => H). Qed.
Lemma kin_kind t p p' : okin p p' -> is_kind t p -> is_kind t p'.
Proof. destruct p as [p|], p' as [p'|]; try contradiction; [|auto]. intros [d ->] (q & [= <-] & T). exists (with_default p d). auto. Qed.
Lemma kin_none p p' : okin p p' -> p = None -> p' = None.
Proof. destruct p, p'; auto; contradiction || discriminate. Qed.
Lemma kin_rank p p' q q' : okin p p' -> okin q q' -> okin (rank p q) (rank p' q').
Proof.
  destruct p as [p|], p' as [p'|]; try contradiction; (destruct q as [q|], q' as [q'|]; try contradiction); cbn [okin rank]; auto.
  - intros [d ->] [d' ->]. cbn [p_type with_default]. destruct (p_type p =? PORDINAL); [now exists d|]. destruct (p_type q =? PORDINAL); [now exists d'|exact Logic.I].
  - intros [d ->] _. cbn [p_type with_default]. destruct (p_type p =? PORDINAL); [now exists d|exact Logic.I].
  - intros _ [d' ->]. cbn [p_type with_default]. destruct (p_type q =? PORDINAL); [now exists d'|exact Logic.I].
Qed.
Lemma kin_equal p p' q q' x y o P : okin p p' -> okin q q' -> equal_means p q x y o P -> equal_means p' q' x y o P.
Proof.
  intros K1 K2 E. destruct E as [P I|P N1 N2 R|P N1 N2 A1 A2 E1 E2 C|P b N1 N2 A1 A2 E C].
  - now constructor.
  - apply em_refused; auto. intros [B1 B2]. apply R. split; [exact (kin_admitted p' p _ (okin_sym _ _ K1) B1)|exact (kin_admitted q' q _ (okin_sym _ _ K2) B2)].
  - apply em_uncomparable; eauto using kin_admitted, kin_none.
  - apply em_answer; eauto using kin_admitted. destruct E as [E|[E|E]]; [left|right; left|right; right; exact E]; intro Q; apply E.
    + exact (kin_none p' p (okin_sym _ _ K1) Q).
    + exact (kin_none q' q (okin_sym _ _ K2) Q).
Qed.
Lemma kin_order rel p p' q q' x y o : okin p p' -> okin q q' -> order_means rel p q x y o -> order_means rel p' q' x y o.
Proof.
  intros K1 K2 E. assert (NK : ~ (is_kind PCATEGORICAL p \/ is_kind PCATEGORICAL q) -> ~ (is_kind PCATEGORICAL p' \/ is_kind PCATEGORICAL q')).
  { intros N [B|B]; apply N; [left; exact (kin_kind _ p' p (okin_sym _ _ K1) B)|right; exact (kin_kind _ q' q (okin_sym _ _ K2) B)]. }
  pose proof (kin_rank p p' q q' K1 K2) as KR.
  assert (RN : rank p q = None -> rank p' q' = None) by (intro Q; exact (kin_none _ _ KR Q)).
  destruct E as [E|N I|N N1 N2 R|r i j b N N1 N2 A1 A2 R P1 P2 B|r N N1 N2 A1 A2 R U|b N N1 N2 A1 A2 R T B|N N1 N2 A1 A2 R T].
  - apply om_categorical. destruct E; [left|right]; eauto using kin_kind.
  - apply om_inactive; auto.
  - apply om_refused; auto. intros [B1 B2]. apply R. split; [exact (kin_admitted p' p _ (okin_sym _ _ K1) B1)|exact (kin_admitted q' q _ (okin_sym _ _ K2) B2)].
  - rewrite R in KR. destruct (rank p' q') as [r'|] eqn:R'; [|contradiction]. destruct KR as [d ->].
    apply (om_ordinal rel p' q' x y (with_default r d) i j b); eauto using kin_admitted.
  - rewrite R in KR. destruct (rank p' q') as [r'|] eqn:R'; [|contradiction]. destruct KR as [d ->].
    apply (om_undeclared rel p' q' x y (with_default r d)); eauto using kin_admitted.
  - apply om_order; eauto using kin_admitted.
  - apply om_unordered; eauto using kin_admitted.
Qed.
Lemma kin_differs p p' x r : okin p p' -> differs p x r -> differs p' x r.
Proof. intros K (y & E & A & N). exists y. eauto using kin_admitted. Qed.
Lemma kin_differ p p' x l : okin p p' -> Forall (differs p x) l -> Forall (differs p' x) l.
Proof. intros K. apply Forall_impl. intro r. now apply kin_differs. Qed.
Lemma kin_in p p' x l o : okin p p' -> in_means p x l o -> in_means p' x l o.
Proof.
  intros K E. destruct E as [I|l1 y l2 N EL D A S|l1 y l2 N EL D A|l1 r l2 N EL D F|y N D I V|N D V].
  - now constructor.
  - eapply im_found; eauto using kin_admitted, kin_differ.
  - eapply im_refused; eauto using kin_differ. intro B. apply A. exact (kin_admitted p' p _ (okin_sym _ _ K) B).
  - eapply im_failed; eauto using kin_differ.
  - eapply im_unknown; eauto using kin_differ.
  - apply im_absent; eauto using kin_differ.
Qed.

Section Moved.
  Variables (heap heap' : Z -> param) (A A' : list Z).
  Hypothesis PP : forall i h h', nth_error A i = Some h -> nth_error A' i = Some h' -> kin (heap h) (heap' h').
  (** the same expression over the other parameters *)
  Inductive alike : expr -> expr -> Prop :=
  | al_lit o o' d : alike (ELit o d) (ELit o' d)
  | al_var o o' i h h' : nth_error A i = Some h -> nth_error A' i = Some h' -> alike (EVar o h) (EVar o' h')
  | al_op o o' t l l' : alikes l l' -> alike (EOp o t l) (EOp o' t l')
  with alikes : list expr -> list expr -> Prop :=
  | als_nil : alikes [] []
  | als_cons e e' l l' : alike e e' -> alikes l l' -> alikes (e :: l) (e' :: l').
  Lemma alike_of e e' : alike e e' -> okin (parameter_of heap e) (parameter_of heap' e').
  Proof. intros []; cbn; eauto. Qed.
  Lemma alike_binary t a b a' b' m : alike a a' -> alike b b' -> binary_op heap t a b = Some m ->
    exists m', binary_op heap' t a' b' = Some m' /\ forall x y r, m x y r -> m' x y r.
  Proof.
    intros La Lb B. pose proof (alike_of _ _ La) as Ka. pose proof (alike_of _ _ Lb) as Kb. unfold binary_op in *.
    destruct t as [|p|p]; [| |discriminate]; [injection B as <-; eauto|].
    repeat (destruct p as [p|p|]; try discriminate; try (injection B as <-; eexists; split; [reflexivity|]; intros x y r; first [exact (fun H => H)|now apply kin_equal|now apply kin_order])).
  Qed.
  Hypothesis ND : NoDup A.
  Hypothesis ND' : NoDup A'.
  Scheme evaluates_mut := Minimality for evaluates Sort Prop
    with evaluate_mut := Minimality for evaluate Sort Prop.
  Lemma alike_evaluates vs e r : evaluates heap (Some A) (Some vs) e r -> forall e', alike e e' -> evaluates heap' (Some A') (Some vs) e' r.
  Proof.
    intro E. apply (evaluates_mut heap (Some A) (Some vs) (fun e r => forall e', alike e e' -> evaluates heap' (Some A') (Some vs) e' r)
      (fun l rs => forall l', alikes l l' -> evaluate heap' (Some A') (Some vs) l' rs)); try exact E; clear E e r.
    - intros o d e' L. inversion L; subst. constructor.
    - intros o h r F e' L. inversion L as [|? o' i ? h' N N'|]; subst. constructor. cbn [found] in *. inversion F as [j d Nj V|j Nj V|NI]; subst.
      + assert (j = i) by (apply (proj1 (NoDup_nth_error A) ND); [apply nth_error_Some; congruence|congruence]). subst j. eapply vl_value; eauto.
      + assert (j = i) by (apply (proj1 (NoDup_nth_error A) ND); [apply nth_error_Some; congruence|congruence]). subst j. eapply vl_short; eauto.
      + exfalso. apply NI. exact (nth_error_In _ _ N).
    - intros o t a m ra r U _ IH UN e' L. inversion L as [| |? o' ? ? l' LS]; subst. inversion LS as [|? a' ? ? La LS']; subst. inversion LS'; subst. eapply ev_unary; eauto.
    - intros o t a b m ra rb r B _ IHa _ IHb BN e' L. inversion L as [| |? o' ? ? l' LS]; subst. inversion LS as [|? a' ? ? La LS']; subst. inversion LS' as [|? b' ? ? Lb LS'']; subst. inversion LS''; subst.
      destruct (alike_binary t a b a' b' m La Lb B) as (m' & B' & M). eapply ev_binary; eauto. unfold binary in *. destruct ra; auto. destruct rb; auto.
    - intros o o' a elems ra rs r _ IHa _ IHl UN e' L. inversion L as [| |? o1 ? ? l' LS]; subst. inversion LS as [|? a' ? ? La LS']; subst. inversion LS' as [|? b' ? ? Lb LS'']; subst. inversion LS''; subst.
      inversion Lb as [| |? o2 ? ? elems' LE]; subst. eapply ev_in; eauto. unfold unary in *. destruct ra; auto. exact (kin_in _ _ _ _ _ (alike_of _ _ La) UN).
    - intros o a b NL e' L. inversion L as [| |? o1 ? ? l' LS]; subst. inversion LS as [|? a' ? ? La LS']; subst. inversion LS' as [|? b' ? ? Lb LS'']; subst. inversion LS''; subst.
      apply ev_in_wrong. intros o2 l E. subst b'. inversion Lb; subst. eapply NL. reflexivity.
    - intros o l e' L. inversion L; subst. constructor.
    - intros l' L. inversion L; subst. constructor.
    - intros e r l rs _ IH _ IHl l' L. inversion L; subst. constructor; auto.
  Qed.
End Moved.

Scheme alike_mut := Minimality for alike Sort Prop
  with alikes_mut := Minimality for alikes Sort Prop.
Lemma alike_sym A A' e e' : alike A A' e e' -> alike A' A e' e.
Proof.
  intro L. apply (alike_mut A A' (fun e e' => alike A' A e' e) (fun l l' => alikes A' A l' l)); try exact L; clear L e e'.
  - intros. constructor.
  - intros o o' i h h' N N'. eapply al_var; eassumption.
  - intros. now constructor.
  - constructor.
  - intros. now constructor.
Qed.
Lemma alikes_in A A' l l' n : alikes A A' l l' -> In n l -> exists n', In n' l' /\ alike A A' n n'.
Proof. intros L. induction L as [|e e' l l' E L IH]; intros []; [subst; exists e'; split; [now left|exact E]|]. destruct (IH H) as (n' & I & X). exists n'. split; [now right|exact X]. Qed.
Lemma alike_occurs A A' e : forall e' h, alike A A' e e' -> occurs h e -> exists i h', nth_error A i = Some h /\ nth_error A' i = Some h' /\ occurs h' e'.
Proof.
  induction e as [o d|o g|o t nodes IH] using expr_rect'; intros e' h L O; inversion O; subst; inversion L; subst.
  - exists i, h'. repeat split; auto. constructor.
  - rewrite Forall_forall in IH. match goal with H : In ?n nodes, K : alikes _ _ nodes ?l' |- _ => destruct (alikes_in _ _ _ _ n K H) as (n' & I' & Ln); destruct (IH n H n' h Ln) as (i & h' & N & N' & O') end; [assumption|].
    exists i, h'. repeat split; auto. econstructor; eauto.
Qed.
Definition oalike (A A' : list Z) (c c' : option expr) : Prop :=
  match c, c' with Some e, Some e' => alike A A' e e' | None, None => True | _, _ => False end.
Lemma oalike_sym A A' c c' : oalike A A' c c' -> oalike A' A c' c.
Proof. destruct c, c'; cbn; auto using alike_sym. Qed.
Lemma Forall2_flip {X Y} (R : X -> Y -> Prop) (Q : Y -> X -> Prop) l m : (forall x y, R x y -> Q y x) -> Forall2 R l m -> Forall2 Q m l.
Proof. intros H F. induction F; constructor; auto. Qed.
Lemma Forall2_nth {X Y} (R : X -> Y -> Prop) l m i x : Forall2 R l m -> nth_error l i = Some x -> exists y, nth_error m i = Some y /\ R x y.
Proof. intro F. revert i. induction F as [|a b l m H F IH]; intros [|i] N; try discriminate; cbn in *; [injection N as <-; eauto|eauto]. Qed.
Lemma Forall2_len {X Y} (R : X -> Y -> Prop) l m : Forall2 R l m -> length l = length m.
Proof. induction 1; cbn; congruence. Qed.
Lemma Forall2_nth_none {X Y} (R : X -> Y -> Prop) l m i : Forall2 R l m -> nth_error l i = None -> nth_error m i = None.
Proof. intros F N. apply nth_error_None. rewrite <- (Forall2_len _ _ _ F). now apply nth_error_None. Qed.

(** One direction; the other one is the same with the parameters exchanged. *)
Section Meaning.
  Variables (heap heap' : Z -> param) (A A' : list Z).
  Hypothesis PP : forall i h h', nth_error A i = Some h -> nth_error A' i = Some h' -> kin (heap h) (heap' h').
  Hypothesis LA : length A = length A'.
  Hypothesis ND : NoDup A.
  Hypothesis ND' : NoDup A'.
  Variables (conds conds' : list (option expr)) (clauses clauses' : list expr).
  Hypothesis CC : Forall2 (oalike A A') conds conds'.
  Hypothesis FF : Forall2 (alike A A') clauses clauses'.
  Lemma m_evaluates vs e e' r : alike A A' e e' -> evaluates heap (Some A) (Some vs) e r -> evaluates heap' (Some A') (Some vs) e' r.
  Proof. intros L E. eapply alike_evaluates; eauto. Qed.
  Lemma m_holds vs e e' : alike A A' e e' -> holds heap A vs e -> holds heap' A' vs e'.
  Proof. intros L (d & E & V). exists d. split; [eapply m_evaluates; eauto|exact V]. Qed.
  Lemma m_fails vs e e' : alike A A' e e' -> fails heap A vs e -> fails heap' A' vs e'.
  Proof. intros L (d & E & V). exists d. split; [eapply m_evaluates; eauto|exact V]. Qed.
  Lemma m_stuck {X} vs e e' (r : res X) : alike A A' e e' -> stuck heap A vs e r -> stuck heap' A' vs e' r.
  Proof. intros L (d & E & V). exists d. split; [eapply m_evaluates; eauto|exact V]. Qed.
  Lemma m_cond i e : nth_error conds i = Some (Some e) -> exists e', nth_error conds' i = Some (Some e') /\ alike A A' e e'.
  Proof. intro N. destruct (Forall2_nth _ _ _ _ _ CC N) as ([e'|] & N' & L); [eauto|contradiction]. Qed.
  Lemma m_cases i : match nth_error conds i, nth_error conds' i with
    | Some (Some e), Some (Some e') => alike A A' e e' | Some (Some _), _ | _, Some (Some _) => False | _, _ => True end.
  Proof.
    destruct (nth_error conds i) as [c|] eqn:N.
    - destruct (Forall2_nth _ _ _ _ _ CC N) as (c' & -> & L). destruct c, c'; cbn in L; auto.
    - now rewrite (Forall2_nth_none _ _ _ _ CC N).
  Qed.
  Lemma m_settled S initial vs i : settled heap A conds S initial vs i -> settled heap' A' conds' S initial vs i.
  Proof.
    unfold settled. pose proof (m_cases i) as C. destruct (nth_error conds i) as [[e|]|], (nth_error conds' i) as [[e'|]|]; try contradiction; auto.
    intros [H1 H2]. split; [|exact H2]. intro Si. destruct (H1 Si) as [[H V]|[H V]]; [left|right]; (split; [|exact V]); eauto using m_holds, m_fails.
  Qed.
  Lemma m_solves S initial vs : solves heap A conds S initial vs -> solves heap' A' conds' S initial vs.
  Proof. intros [L H]. split; [exact L|]. intros i I. apply m_settled. auto. Qed.
  Lemma m_reads j i : reads A conds j i -> reads A' conds' j i.
  Proof.
    intros (e & h & C & N & O). destruct (m_cond i e C) as (e' & C' & L). destruct (alike_occurs _ _ _ _ _ L O) as (k & h' & Nk & Nk' & O').
    assert (k = j) by (apply (proj1 (NoDup_nth_error A) ND); [apply nth_error_Some; congruence|congruence]). subst k. exists e', h'. auto.
  Qed.
  Lemma m_depends j i : depends A conds j i -> depends A' conds' j i.
  Proof. intro D. induction D as [x y H|x y z D1 IH1 D2 IH2]; [apply t_step; now apply m_reads|eapply t_trans; eauto]. Qed.
  Lemma m_live vs i : live heap A conds vs i -> live heap' A' conds' vs i.
  Proof.
    unfold live. pose proof (m_cases i) as C. destruct (nth_error conds i) as [[e|]|], (nth_error conds' i) as [[e'|]|]; try contradiction; auto. now apply m_holds.
  Qed.
  Lemma m_dormant vs i : dormant heap A conds vs i -> dormant heap' A' conds' vs i.
  Proof.
    unfold dormant. pose proof (m_cases i) as C. destruct (nth_error conds i) as [[e|]|], (nth_error conds' i) as [[e'|]|]; try contradiction; auto. now apply m_fails.
  Qed.
  Lemma m_right vs i : right_value heap A conds vs i -> right_value heap' A' conds' vs i.
  Proof.
    intros (h & v & N & V & H). assert (I : (i < length A')%nat) by (rewrite <- LA; apply nth_error_Some; congruence). destruct (nth_error A' i) as [h'|] eqn:N'; [|apply nth_error_None in N'; lia].
    exists h', v. split; [exact N'|]. split; [exact V|]. destruct H as [(L & NV & D)|(L & NV)]; [left|right]; [|eauto using m_dormant]. split; [now apply m_live|]. split; [exact NV|]. destruct (PP i h h' N N') as [d ->]. exact D.
  Qed.
  Lemma m_valid vs : valid heap A conds clauses vs -> valid heap' A' conds' clauses' vs.
  Proof.
    intros (L & R & F). split; [congruence|]. split; [intros i I; apply m_right, R; lia|]. revert F. induction FF as [|e e' l l' E FL IH]; intro F; inversion F; subst; constructor; eauto using m_fails.
  Qed.
End Meaning.
Section Both.
  Variables (heap heap' : Z -> param) (A A' : list Z).
  Hypothesis PP : forall i h h', nth_error A i = Some h -> nth_error A' i = Some h' -> kin (heap h) (heap' h').
  Hypothesis LA : length A = length A'.
  Hypothesis ND : NoDup A.
  Hypothesis ND' : NoDup A'.
  Variables (conds conds' : list (option expr)) (clauses clauses' : list expr).
  Hypothesis CC : Forall2 (oalike A A') conds conds'.
  Hypothesis FF : Forall2 (alike A A') clauses clauses'.
  Lemma PP' : forall i h h', nth_error A' i = Some h -> nth_error A i = Some h' -> kin (heap' h) (heap h').
  Proof. intros i h h' N N'. apply kin_sym. eauto. Qed.
  Lemma CC' : Forall2 (oalike A' A) conds' conds.
  Proof. eapply Forall2_flip; [|exact CC]. intros x y. apply oalike_sym. Qed.
  Lemma FF' : Forall2 (alike A' A) clauses' clauses.
  Proof. eapply Forall2_flip; [|exact FF]. intros x y. apply alike_sym. Qed.
  Lemma b_unsettled {X} S initial (r : res X) : unsettled heap A conds S initial r -> unsettled heap' A' conds' S initial r.
  Proof.
    intros (vs & i & e & L & W & C & Si & D & K). destruct (m_cond A A' conds conds' CC i e C) as (e' & C' & LE). exists vs, i, e'.
    split; [exact L|]. split; [exact W|]. split; [exact C'|]. split; [exact Si|]. split; [|eapply m_stuck; eauto].
    intros j DJ. eapply m_settled; eauto. apply D. eapply m_depends; [..|exact DJ]; auto using CC'.
  Qed.
  Lemma b_acyclic : acyclic A conds -> acyclic A' conds'.
  Proof. intros H i D. apply (H i). eapply m_depends; [..|exact D]; auto using CC'. Qed.
  Lemma b_valid vs : valid heap A conds clauses vs <-> valid heap' A' conds' clauses' vs.
  Proof.
    split.
    - eapply m_valid; eauto.
    - eapply m_valid; eauto using PP', CC', FF'.
  Qed.
End Both.
(** An expression restored *)
Lemma restored_alike A A' f : (forall i h, nth_error A i = Some h -> nth_error A' i = Some (f h)) -> forall e, (forall h, occurs h e -> In h A) -> alike A A' e (restored f e).
Proof.
  intros M e. induction e as [o d|o g|o t nodes IH] using expr_rect'; intro O; cbn [restored].
  - constructor.
  - destruct (In_nth_error A g (O g (occ_var g o))) as [i N]. exact (al_var A A' o _ i g (f g) N (M i g N)).
  - constructor. assert (O' : forall n, In n nodes -> forall h, occurs h n -> In h A) by (intros n I h Oh; apply O; econstructor; eauto). clear O.
    induction nodes as [|n l IHl]; cbn [map]; constructor; inversion IH; subst.
    + apply H1. exact (O' n (or_introl eq_refl)).
    + apply IHl; [assumption|]. intros n' I. apply O'. now right.
Qed.
