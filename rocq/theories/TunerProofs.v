(** Proofs about random tuners. *)
From Coq Require Import ZArith List Bool Lia Arith.
From Verif Require Import Base Datum CodecProofs CmpModel CmpSpec CmpProofs ParamModel ContextModel ExprModel EvalModel EvalSpec EvalProofs EvalOrder TunerModel TunerSpec.
Import ListNotations.
Open Scope Z_scope.

(** ** Selections *)
Lemma selects_len {A} (P : nat -> Prop) i (l o : list A) : selects P i l o -> forall x, In x o -> exists j, P (i + j)%nat /\ nth_error l j = Some x.
Proof.
  induction 1 as [|i x l o H K IH|i x l o H K IH]; intros y I; [contradiction| |].
  - destruct I as [<-|I]; [exists O; now rewrite Nat.add_0_r|]. destruct (IH y I) as (j & Pj & N). exists (S j). now rewrite Nat.add_succ_r.
  - destruct (IH y I) as (j & Pj & N). exists (S j). now rewrite Nat.add_succ_r.
Qed.
Lemma selects_in {A} (P : nat -> Prop) i (l o : list A) : selects P i l o -> forall j x, P (i + j)%nat -> nth_error l j = Some x -> In x o.
Proof.
  induction 1 as [|i x l o H K IH|i x l o H K IH]; intros j y Pj N; [now destruct j| |].
  - destruct j as [|j]; [injection N as <-; now left|]. right. apply (IH j); [now rewrite <- Nat.add_succ_comm in Pj|exact N].
  - destruct j as [|j]; [now rewrite Nat.add_0_r in Pj|]. apply (IH j); [now rewrite <- Nat.add_succ_comm in Pj|exact N].
Qed.
(** keeping a part of a selection *)
Lemma selects_filter {A} (P Q : nat -> Prop) (f : A -> bool) : forall l i o, selects P i l o ->
  (forall j x, nth_error l j = Some x -> (Q (i + j)%nat <-> P (i + j)%nat /\ f x = true)) -> selects Q i l (filter f o).
Proof.
  intros l i o H. induction H as [|i x l o H K IH|i x l o H K IH]; intro E; cbn [filter].
  - constructor.
  - assert (R : selects Q (S i) l (filter f o)). { apply IH. intros j y N. rewrite Nat.add_succ_comm. now apply (E (S j)). }
    pose proof (E O x eq_refl) as E0. rewrite Nat.add_0_r in E0. destruct (f x); [apply selects_keep|apply selects_drop]; auto; rewrite E0; [auto|intros [_ ?]; discriminate].
  - apply selects_drop; [|apply IH; intros j y N; rewrite Nat.add_succ_comm; now apply (E (S j))]. pose proof (E O x eq_refl) as E0. rewrite Nat.add_0_r in E0. tauto.
Qed.
Lemma selects_snoc {A} (P : nat -> Prop) x : forall l i (o : list A), selects P i l o ->
  (P (i + length l)%nat -> selects P i (l ++ [x]) (o ++ [x])) /\ (~ P (i + length l)%nat -> selects P i (l ++ [x]) o).
Proof.
  intros l i o H. induction H as [i|i y l o H K [IH1 IH2]|i y l o H K [IH1 IH2]]; cbn [app length]; rewrite ?Nat.add_0_r; rewrite <- ?Nat.add_succ_comm.
  - split; intro P0; [apply selects_keep|apply selects_drop]; auto; constructor.
  - split; intro P0; apply selects_keep; auto.
  - split; intro P0; apply selects_drop; auto.
Qed.

Section Tuner.
  Variable heap : Z -> param.
  Variable jen : list Z -> Z.
  Variable feat : bool.
  Notation compares := (compares heap jen feat).
  Notation retold := (retold heap jen feat).
  Notation minus_beaten := (minus_beaten heap jen feat).
  Definition wfw (w : world) : Prop := forall f, wf_binding (w_features w f).

  (** ** One evaluation *)
  Lemma compare_range w e o r : compares w e o (Ok r) -> r = -1 \/ r = 0 \/ r = 1 \/ r = 2.
  Proof.
    intro C. inversion C as [| | |r' N Ra Rb Sp F P]; subst; auto. apply pareto_cases in P.
    destruct P as [(_ & _ & [[E _]|[[E _]|[E _]]])|[(E & _)|(l1 & c & l2 & _ & _ & _ & B)]]; try (injection E as ->; auto).
    remember (Ok r) as R. destruct B as [|s K|x s K K']; [injection HeqR as <-; auto| |]; subst s.
    - destruct (k_left c); cbn in K; [contradiction|discriminate|discriminate].
    - destruct (k_right c); cbn in K'; [contradiction|discriminate|discriminate].
  Qed.
  Lemma sweep_true w e : forall old acc, sweep heap jen feat w e old true acc = Ok (true, acc ++ old).
  Proof. induction old as [|o old IH]; intro acc; cbn [sweep]; [now rewrite app_nil_r|]. now rewrite IH, <- app_assoc. Qed.
  Lemma mb_snoc w e o l l' : minus_beaten w e l l' ->
    (compares w e o (Ok (-1)) -> minus_beaten w e (l ++ [o]) l') /\ (compares w e o (Ok 2) -> minus_beaten w e (l ++ [o]) (l' ++ [o])).
  Proof.
    induction 1 as [|x l l' C M [IH1 IH2]|x l l' C M [IH1 IH2]]; cbn [app]; split; intro K.
    - apply mb_beaten; [exact K|constructor].
    - apply mb_kept; [exact K|constructor].
    - apply mb_beaten; auto.
    - apply mb_beaten; auto.
    - apply mb_kept; auto.
    - apply mb_kept; auto.
  Qed.
  Lemma sweep_spec w e : wfw w -> forall old done acc d opt, minus_beaten w e done acc -> sweep heap jen feat w e old false acc = Ok (d, opt) ->
    retold w e (done ++ old) (if d then opt else opt ++ [e]).
  Proof.
    intro W. induction old as [|o old IH]; intros done acc d opt M E; cbn [sweep] in E.
    - injection E as <- <-. rewrite app_nil_r. now apply retold_added.
    - pose proof (compare_spec heap jen w feat e o W) as C. destruct (mb_snoc w e o done acc M) as [M1 M2].
      destruct (compare heap jen w feat e o) as [r|c|u].
      + pose proof (compare_range w e o r C) as R. unfold EQUIVALENT, WORSE, BETTER in E.
        destruct R as [-> |[-> |[-> | ->]]]; cbn in E.
        * change (o :: old) with ([o] ++ old). rewrite app_assoc. apply (IH _ acc); auto.
        * rewrite sweep_true, <- app_assoc in E. injection E as <- <-. apply retold_worse; auto.
        * rewrite sweep_true, <- app_assoc in E. injection E as <- <-. apply retold_worse; auto.
        * change (o :: old) with ([o] ++ old). rewrite app_assoc. apply (IH _ (acc ++ [o])); auto.
      + rewrite sweep_true in E. injection E as <- <-. now apply (retold_failed heap jen feat w e done o old acc c).
      + discriminate.
  Qed.
  Theorem tell_one_spec w t e t' : wfw w -> tell_one heap jen feat w t e = Ok t' ->
    (ev_result (w_eval w e) <> 0 /\ t' = t) \/
    (ev_result (w_eval w e) = 0 /\ t_history t' = t_history t ++ [e] /\ retold w e (t_optima t) (t_optima t') /\ t_fspace t' = t_fspace t).
  Proof.
    intros W E. unfold tell_one, CCS_RESULT_SUCCESS in E. destruct (Z.eqb_spec (ev_result (w_eval w e)) 0) as [R|R]; [right|left; split; [exact R|congruence]].
    split; [exact R|]. destruct (sweep heap jen feat w e (t_optima t) false []) as [[d opt]| |] eqn:S; try discriminate. injection E as <-. cbn.
    split; [reflexivity|]. split; [|reflexivity]. apply (sweep_spec w e W (t_optima t) [] [] d opt); [constructor|exact S].
  Qed.
  Lemma tell_history w : wfw w -> forall es t t', tell heap jen feat w t es = Ok t' -> t_history t' = t_history t ++ told_by (w, es) /\ t_fspace t' = t_fspace t.
  Proof.
    intro W. induction es as [|e es IH]; intros t t' E; cbn [tell] in E.
    - injection E as <-. unfold told_by. cbn. now rewrite app_nil_r.
    - destruct (tell_one heap jen feat w t e) as [t1| |] eqn:T; try discriminate. destruct (IH t1 t' E) as [H F]. unfold told_by in *. cbn [fst snd filter] in *.
      destruct (tell_one_spec w t e t1 W T) as [[R ->]|(R & H1 & _ & F1)].
      + apply Z.eqb_neq in R. rewrite R. auto.
      + apply Z.eqb_eq in R. rewrite R, H, H1, <- app_assoc. split; [reflexivity|congruence].
  Qed.
  Theorem tells_history : forall calls t t', Forall (fun c => wfw (fst c)) calls -> tells heap jen feat t calls = Ok t' ->
    t_history t' = t_history t ++ told calls /\ t_fspace t' = t_fspace t.
  Proof.
    induction calls as [|[w es] calls IH]; intros t t' W E; cbn [tells] in E.
    - injection E as <-. unfold told. cbn. now rewrite app_nil_r.
    - inversion W as [|? ? W1 W2]; subst. destruct (tell heap jen feat w t es) as [t1| |] eqn:T; try discriminate. destruct (IH t1 t' W2 E) as [H F].
      destruct (tell_history w W1 es t t1 T) as [H1 F1]. unfold told. cbn [map concat]. rewrite H, H1, <- app_assoc. split; [reflexivity|congruence].
  Qed.

  (** ** The front *)
  Section Front.
    Variable w : world.
    Hypothesis W : wfw w.
    Variable s : Z.
    Notation fine := (fine heap jen w s).
    Notation dom := (dominates heap jen feat w).
    Notation tie := (tied heap jen feat w).
    Definition loe (a b : Z) : Prop := dom a b \/ tie a b.
    Lemma loe_trans a b c : fine a -> fine b -> fine c -> loe a b -> loe b c -> loe a c.
    Proof.
      intros A B C [D|D] [E|E].
      - left. now apply (dom_trans heap jen feat w s a b c).
      - left. now apply (dom_tie heap jen feat w s a b c).
      - left. now apply (tie_dom heap jen feat w s a b c).
      - right. now apply (tie_trans heap jen feat w s a b c).
    Qed.
    Lemma loe_dom a b : fine a -> fine b -> loe a b -> ~ dom b a.
    Proof.
      intros A B [D|D] E; [now apply (dom_asym heap jen feat w s a b)|]. now apply (dom_not_tie heap jen feat w s b a).
    Qed.
    Definition beats (e o : Z) : bool := match compare heap jen w feat e o with Ok r => r =? -1 | _ => false end.
    Lemma compare_fine a b : fine a -> fine b -> exists r, compare heap jen w feat a b = Ok r /\
      ((r = -1 /\ dom a b /\ ~ loe b a) \/ (r = 1 /\ loe b a /\ ~ dom a b) \/ (r = 0 /\ loe b a /\ ~ dom a b) \/ (r = 2 /\ ~ dom a b /\ ~ loe b a)).
    Proof.
      intros A B. pose proof (compare_spec heap jen w feat a b W) as C. apply (compares_fine heap jen feat w s a b _ A B) in C.
      destruct C as [[-> D]|[[-> D]|[[-> D]|(-> & D & D' & D'')]]]; eexists; (split; [reflexivity|]).
      - left. split; [reflexivity|]. split; [exact D|]. intro L. now apply (loe_dom b a B A L).
      - right. left. split; [reflexivity|]. split; [now left|]. now apply (dom_asym heap jen feat w s b a).
      - right. right. left. apply (tie_sym heap jen feat w s a b A B) in D as D1. split; [reflexivity|]. split; [now right|]. intro E. now apply (dom_not_tie heap jen feat w s a b A B E).
      - right. right. right. split; [reflexivity|]. split; [exact D|]. intros [L|L]; [now apply D'|]. apply D''. now apply (tie_sym heap jen feat w s b a).
    Qed.
    Lemma beats_dom e o : fine e -> fine o -> beats e o = true <-> dom e o.
    Proof.
      intros E O. unfold beats. destruct (compare_fine e o E O) as (r & -> & [(-> & D & _)|[(-> & _ & D)|[(-> & _ & D)|(-> & D & _)]]]); cbn; split; intro K; try discriminate; auto; contradiction.
    Qed.
    (** the sweep, on optima none of which dominates another *)
    Lemma sweep_fine e : fine e -> forall old acc, (forall o, In o old -> fine o) -> (forall o o', In o old -> In o' old -> ~ dom o o') ->
      exists d opt, sweep heap jen feat w e old false acc = Ok (d, opt) /\ opt = acc ++ filter (fun o => negb (beats e o)) old /\
        (d = true <-> exists o, In o old /\ loe o e).
    Proof.
      intros Fe. induction old as [|o old IH]; intros acc FO ND; cbn [sweep].
      - exists false, acc. split; [reflexivity|]. cbn. split; [now rewrite app_nil_r|]. split; [discriminate|]. intros (o & [] & _).
      - assert (Fo : fine o) by (apply FO; now left). assert (IHo : forall acc', exists d opt, sweep heap jen feat w e old false acc' = Ok (d, opt) /\
          opt = acc' ++ filter (fun o => negb (beats e o)) old /\ (d = true <-> exists o, In o old /\ loe o e)).
        { intro acc'. apply IH; [intros; apply FO; now right|]. intros; apply ND; now right. }
        destruct (compare_fine e o Fe Fo) as (r & C & R). rewrite C. cbn [filter]. unfold EQUIVALENT, WORSE, BETTER.
        assert (B : beats e o = (r =? -1)) by (unfold beats; now rewrite C).
        assert (DISC : loe o e -> filter (fun o => negb (beats e o)) old = old).
        { intro L. clear - L FO ND Fe Fo W. assert (forall x, In x old -> beats e x = false).
          { intros x I. destruct (beats e x) eqn:Bx; [|reflexivity]. exfalso. assert (Fx : fine x) by (apply FO; now right). apply (beats_dom e x Fe Fx) in Bx.
            apply (ND o x); [now left|now right|]. destruct L as [L|L]; [now apply (dom_trans heap jen feat w s o e x)|now apply (tie_dom heap jen feat w s o e x)]. }
          clear - H. induction old as [|y old IH]; [reflexivity|]. cbn. rewrite (H y) by now left. cbn. rewrite IH; [reflexivity|]. intros x I. apply H. now right. }
        rewrite B. destruct R as [(-> & D & N)|[(-> & L & D)|[(-> & L & D)|(-> & D & N)]]]; cbn.
        + destruct (IHo acc) as (d & opt & -> & -> & HD). exists d. eexists. split; [reflexivity|]. split; [reflexivity|]. rewrite HD.
          split; intros (x & I & L); [exists x; auto|]. destruct I as [<-|I]; [contradiction|]. exists x. auto.
        + rewrite sweep_true, DISC by exact L. eexists; eexists. split; [reflexivity|]. split; [now rewrite <- app_assoc|]. split; [|reflexivity]. intros _. exists o. auto.
        + rewrite sweep_true, DISC by exact L. eexists; eexists. split; [reflexivity|]. split; [now rewrite <- app_assoc|]. split; [|reflexivity]. intros _. exists o. auto.
        + destruct (IHo (acc ++ [o])) as (d & opt & -> & -> & HD). exists d. eexists. split; [reflexivity|]. split; [now rewrite <- app_assoc|]. rewrite HD.
          split; intros (x & I & L); [exists x; auto|]. destruct I as [<-|I]; [contradiction|]. exists x. auto.
    Qed.
    Notation front := (front heap jen feat w).
    (** the front, and every told evaluation is covered by an optimum *)
    Definition inv (hist opt : list Z) : Prop :=
      (forall e, In e hist -> fine e) /\ front hist opt /\ (forall f, In f hist -> exists o, In o opt /\ loe o f).
    Lemma inv_opt hist opt o : inv hist opt -> In o opt -> In o hist /\ (forall f, In f hist -> ~ dom f o).
    Proof.
      intros (_ & F & _) I. destruct (selects_len _ _ _ _ F o I) as (j & (e & N & D & _) & N'). cbn in N. rewrite N in N'. injection N' as ->.
      split; [now apply nth_error_In in N|exact D].
    Qed.
    Lemma tell_inv t e : inv (t_history t) (t_optima t) -> fine e ->
      exists t', tell_one heap jen feat w t e = Ok t' /\ inv (t_history t') (t_optima t').
    Proof.
      intros I Fe. set (hist := t_history t) in *. set (opt := t_optima t) in *. pose proof (inv_opt hist opt) as IO. destruct I as (FH & F & CV) eqn:EI.
      assert (R : ev_result (w_eval w e) = 0) by apply Fe. unfold tell_one, CCS_RESULT_SUCCESS. rewrite R. cbn [Z.eqb]. fold hist opt.
      assert (FO : forall o, In o opt -> fine o) by (intros o Io; apply FH; now apply (IO o I)).
      assert (ND : forall o o', In o opt -> In o' opt -> ~ dom o o'). { intros o o' Io Io'. apply (IO o' I Io'). now apply (IO o I). }
      destruct (sweep_fine e Fe opt [] FO ND) as (d & new & -> & -> & HD). cbn [bind app]. eexists. split; [reflexivity|]. cbn [t_history t_optima].
      set (kept := filter (fun o => negb (beats e o)) opt).
      assert (KEPT : forall o, In o kept <-> In o opt /\ ~ dom e o).
      { intro o. unfold kept. rewrite filter_In. split; intros [Io B]; (split; [exact Io|]).
        - intro D. apply (beats_dom e o Fe (FO o Io)) in D. rewrite D in B. discriminate.
        - destruct (beats e o) eqn:Bo; [|reflexivity]. exfalso. apply B. now apply (beats_dom e o Fe (FO o Io)). }
      assert (SEL : selects (undominated heap jen feat w (hist ++ [e])) 0 hist kept).
      { apply (selects_filter (undominated heap jen feat w hist)); [exact F|]. intros j x N. cbn [Nat.add].
        assert (Lj : (j < length hist)%nat) by (apply nth_error_Some; now rewrite N). assert (Fx : fine x) by (apply FH; now apply nth_error_In in N).
        unfold undominated. rewrite (nth_error_app1 hist [e] Lj). split.
        - intros (y & Ny & D & T). rewrite N in Ny. injection Ny as <-. split.
          + exists x. split; [exact N|]. split; [intros f If; apply D; apply in_or_app; now left|]. intros k f Lk Nk. apply (T k f Lk). now rewrite nth_error_app1 by lia.
          + destruct (beats e x) eqn:B; [|reflexivity]. exfalso. apply (beats_dom e x Fe Fx) in B. apply (D e); [apply in_or_app; right; now left|exact B].
        - intros [(y & Ny & D & T) B]. rewrite N in Ny. injection Ny as <-. exists x. split; [exact N|]. split.
          + intros f If. apply in_app_or in If. destruct If as [If|[<-|[]]]; [now apply D|]. intro K. apply (beats_dom e x Fe Fx) in K. rewrite K in B. discriminate.
          + intros k f Lk Nk. apply (T k f Lk). now rewrite nth_error_app1 in Nk by lia. }
      pose proof (selects_snoc (undominated heap jen feat w (hist ++ [e])) e hist 0 kept SEL) as [SN1 SN2]. cbn [Nat.add] in SN1, SN2.
      assert (UE : undominated heap jen feat w (hist ++ [e]) (length hist) <-> ~ exists f, In f hist /\ loe f e).
      { unfold undominated. rewrite nth_error_app2, Nat.sub_diag by lia. cbn. split.
        - intros (y & Ny & D & T) (f & If & [L|L]); injection Ny as <-; [apply (D f); [apply in_or_app; now left|exact L]|].
          apply In_nth_error in If. destruct If as (k & Nk). assert (k < length hist)%nat by (apply nth_error_Some; now rewrite Nk). apply (T k f); auto. now rewrite nth_error_app1.
        - intros N. exists e. split; [reflexivity|]. split.
          + intros f If K. apply in_app_or in If. destruct If as [If|[<-|[]]]; [apply N; exists f; split; [exact If|now left]|].
            apply (dom_not_tie heap jen feat w s e e Fe Fe K). now left.
          + intros k f Lk Nk K. rewrite nth_error_app1 in Nk by exact Lk. apply N. exists f. split; [now apply nth_error_In in Nk|now right]. }
      assert (COV : (exists f, In f hist /\ loe f e) <-> d = true).
      { rewrite HD. split; intros (f & If & L).
        - destruct (CV f If) as (o & Io & Lo). exists o. split; [exact Io|]. apply (loe_trans o f e); auto.
        - exists f. split; [now apply (IO f I)|exact L]. }
      assert (FH' : forall x, In x (hist ++ [e]) -> fine x). { intros x Ix. apply in_app_or in Ix. destruct Ix as [Ix|[<-|[]]]; auto. }
      split; [exact FH'|]. destruct d.
      - assert (L : exists f, In f hist /\ loe f e) by now apply COV. split; [apply SN2; rewrite UE; tauto|].
        assert (KK : forall o, In o opt -> In o kept).
        { intros o Io. apply KEPT. split; [exact Io|]. intro D. destruct L as (f & If & Lf). apply (proj2 (IO o I Io) f If).
          destruct Lf as [Lf|Lf]; [apply (dom_trans heap jen feat w s f e o)|apply (tie_dom heap jen feat w s f e o)]; auto. }
        intros f If. apply in_app_or in If. destruct If as [If|[<-|[]]].
        + destruct (CV f If) as (o & Io & Lo). exists o. auto.
        + destruct L as (f & If & Lf). destruct (CV f If) as (o & Io & Lo). exists o. split; [auto|]. apply (loe_trans o f e); auto.
      - assert (L : ~ exists f, In f hist /\ loe f e) by (rewrite COV; discriminate). split; [apply SN1; now rewrite UE|].
        intros f If. apply in_app_or in If. destruct If as [If|[<-|[]]].
        + destruct (CV f If) as (o & Io & Lo). destruct (beats e o) eqn:B.
          * apply (beats_dom e o Fe (FO o Io)) in B. exists e. split; [apply in_or_app; right; now left|]. apply (loe_trans e o f); auto. now left.
          * exists o. split; [apply in_or_app; left; apply KEPT; split; [exact Io|]; intro D; apply (beats_dom e o Fe (FO o Io)) in D; congruence|exact Lo].
        + exists e. split; [apply in_or_app; right; now left|]. right. now left.
    Qed.
  End Front.

  (** ** Evaluations that do not change *)
  Lemma compare_unchanged w w' a b : unchanged w w' a -> unchanged w w' b -> compare heap jen w feat a b = compare heap jen w' feat a b.
  Proof.
    intros (Ea & Sa & Fa) (Eb & Sb & Fb). unfold compare. rewrite <- Ea, <- Eb. unfold features_cmp. rewrite <- Fa, <- Fb, <- Sa.
    destruct (a =? b); [reflexivity|]. unfold refute. destruct (negb (ev_result (w_eval w a) =? 0) || negb (ev_result (w_eval w b) =? 0)); [reflexivity|].
    cbn [bind]. destruct (Z.eqb_spec (ev_space (w_eval w a)) (ev_space (w_eval w b))) as [SP|SP]; [|reflexivity]. cbn [negb bind].
    destruct (feat && negb (binding_cmp (w_features w (ev_features (w_eval w a))) (w_features w (ev_features (w_eval w b))) =? 0)); [reflexivity|].
    generalize EQUIVALENT. induction (sp_objectives (w_space w (ev_space (w_eval w a)))) as [|[x t] l IH]; intro r; cbn [compare_loop]; [reflexivity|].
    unfold objective_eval. rewrite <- Ea, <- Eb, <- Sa, <- Sb.
    destruct (eval heap jen (Some (sp_ctx (w_space w (ev_space (w_eval w a))))) (Some (ev_values (w_eval w a))) x) as [va| |]; cbn [bind]; try reflexivity.
    destruct (eval heap jen (Some (sp_ctx (w_space w (ev_space (w_eval w b))))) (Some (ev_values (w_eval w b))) x) as [vb| |]; cbn [bind]; try reflexivity.
    now rewrite !IH.
  Qed.
  Lemma sweep_unchanged w w' e : unchanged w w' e -> forall old d acc, (forall o, In o old -> unchanged w w' o) ->
    sweep heap jen feat w e old d acc = sweep heap jen feat w' e old d acc.
  Proof.
    intro U. induction old as [|o old IH]; intros d acc UO; cbn [sweep]; [reflexivity|].
    rewrite (compare_unchanged w w' e o U) by (apply UO; now left). rewrite !IH by (intros; apply UO; now right). 
    destruct d; [reflexivity|]. destruct (compare heap jen w' feat e o); auto.
    all: rewrite ?IH by (intros; apply UO; now right); reflexivity.
  Qed.
  Lemma told_app a b : told (a ++ b) = told a ++ told b.
  Proof. unfold told. now rewrite map_app, concat_app. Qed.
  Lemma tell_front final s w : wfw final -> forall es t, inv final s (t_history t) (t_optima t) ->
    (forall e, In e (t_history t) -> unchanged w final e) -> (forall e, In e (told_by (w, es)) -> unchanged w final e /\ fine heap jen final s e) ->
    exists t', tell heap jen feat w t es = Ok t' /\ inv final s (t_history t') (t_optima t') /\ t_history t' = t_history t ++ told_by (w, es) /\ t_fspace t' = t_fspace t.
  Proof.
    intro W. induction es as [|e es IH]; intros t I UH UN; cbn [tell].
    - exists t. unfold told_by. cbn. rewrite app_nil_r. auto.
    - unfold told_by in *. cbn [fst snd filter] in *. destruct (ev_result (w_eval w e) =? 0) eqn:R.
      + destruct (UN e ltac:(now left)) as [Ue Fe]. destruct (tell_inv final W s t e I Fe) as (t1 & T & I1).
        assert (R' : ev_result (w_eval final e) =? 0 = true) by (apply Z.eqb_eq, Fe).
        assert (T1 : tell_one heap jen feat w t e = Ok t1).
        { rewrite <- T. unfold tell_one, CCS_RESULT_SUCCESS. rewrite R, R'. rewrite (sweep_unchanged w final e Ue); [reflexivity|].
          intros o Io. apply UH. now apply (inv_opt final s _ _ o I). }
        assert (H1 : t_history t1 = t_history t ++ [e] /\ t_fspace t1 = t_fspace t).
        { unfold tell_one, CCS_RESULT_SUCCESS in T. rewrite R' in T. destruct (sweep heap jen feat final e (t_optima t) false []) as [[d o]| |]; try discriminate. now injection T as <-. }
        destruct H1 as [H1 F1]. rewrite T1. cbn [bind]. destruct (IH t1 I1) as (t' & E & I' & H & F').
        * intros x. rewrite H1, in_app_iff. intros [Ix|[<-|[]]]; [now apply UH|exact Ue].
        * intros x Ix. apply UN. now right.
        * exists t'. split; [exact E|]. split; [exact I'|]. split; [rewrite H, H1, <- app_assoc; reflexivity|congruence].
      + unfold tell_one, CCS_RESULT_SUCCESS. rewrite R. cbn [bind]. now apply IH.
  Qed.
  Lemma tells_front final s : wfw final -> forall calls before t, inv final s (t_history t) (t_optima t) -> t_history t = told before ->
    settled (before ++ calls) final -> (forall e, In e (told (before ++ calls)) -> fine heap jen final s e) ->
    exists t', tells heap jen feat t calls = Ok t' /\ inv final s (t_history t') (t_optima t') /\ t_history t' = told (before ++ calls) /\ t_fspace t' = t_fspace t.
  Proof.
    intro W. induction calls as [|[w es] calls IH]; intros before t I H ST FN; cbn [tells].
    - exists t. rewrite app_nil_r. auto.
    - pose proof (ST before w es calls eq_refl) as UN. rewrite told_app in UN.
      assert (TB : told [(w, es)] = told_by (w, es)) by (unfold told; cbn; apply app_nil_r). rewrite TB in UN.
      destruct (tell_front final s w W es t I) as (t1 & E & I1 & H1 & F1).
      + intros e Ie. apply UN. apply in_or_app. left. now rewrite <- H.
      + intros e Ie. split; [apply UN; apply in_or_app; now right|]. apply FN. rewrite told_app. apply in_or_app. right. unfold told. cbn [map concat]. apply in_or_app. now left.
      + rewrite E. cbn [bind]. change ((w, es) :: calls) with ([(w, es)] ++ calls) in *. rewrite app_assoc in *. destruct (IH (before ++ [(w, es)]) t1 I1) as (t' & E' & I' & H' & F'); auto.
        * rewrite told_app, TB, H1. now f_equal.
        * exists t'. split; [exact E'|]. split; [exact I'|]. split; [exact H'|congruence].
  Qed.
  Theorem optima_front fs s calls final : wfw final -> settled calls final -> (forall e, In e (told calls) -> fine heap jen final s e) ->
    exists t, tells heap jen feat (create_tuner fs) calls = Ok t /\ t_history t = told calls /\ front heap jen feat final (told calls) (t_optima t) /\
      (forall f, In f (told calls) -> exists o, In o (t_optima t) /\ (dominates heap jen feat final o f \/ tied heap jen feat final o f)).
  Proof.
    intros W ST FN. destruct (tells_front final s W calls [] (create_tuner fs)) as (t & E & (_ & F & C) & H & _); auto.
    - split; [intros e []|]. split; [constructor|]. intros f [].
    - exists t. cbn [app] in H. rewrite H in F, C. auto.
  Qed.

  (** ** What the front is *)
  Lemma selects_func {A} (P : nat -> Prop) i (l o o' : list A) : selects P i l o -> selects P i l o' -> o = o'.
  Proof.
    intro S. revert o'. induction S as [|i x l o H K IH|i x l o H K IH]; intros o' T; inversion T; subst; try contradiction; auto. now rewrite (IH o0).
  Qed.
  Lemma front_members w hist opt : front heap jen feat w hist opt -> forall o, In o opt <-> exists i, nth_error hist i = Some o /\ undominated heap jen feat w hist i.
  Proof.
    intros F o. split.
    - intro I. destruct (selects_len _ _ _ _ F o I) as (j & U & N). exists j. auto.
    - intros (i & N & U). now apply (selects_in _ _ _ _ F i).
  Qed.

  (** ** Reading the optima and the history *)
  Lemma answer_spec l arr : read 0 l arr (answer l arr).
  Proof.
    destruct arr as [n|]; unfold answer; [|constructor]. unfold refute. destruct (Nat.ltb_spec n (length l)); cbn [bind]; [now apply read_small|]. now apply read_filled with (pad := repeat 0 (n - length l)).
  Qed.
  Lemma has_features_iff w f e : wfw w -> has_features w f e = true <-> same_binding (w_features w f) (w_features w (ev_features (w_eval w e))).
  Proof. intro W. unfold has_features. rewrite Z.eqb_eq. now apply features_cmp_same. Qed.
  Lemma count_filter w f l : count_features w f l = length (filter (has_features w f) l).
  Proof. induction l as [|e l IH]; cbn; [reflexivity|]. destruct (has_features w f e); cbn; now rewrite IH. Qed.
  Lemma filter_restricted {A} (f : A -> bool) (P : A -> Prop) l : (forall x, f x = true <-> P x) -> restricted P l (filter f l).
  Proof.
    intro H. induction l as [|x l IH]; cbn; [constructor|]. destruct (f x) eqn:E.
    - apply restricted_in; [now apply H|exact IH].
    - apply restricted_out; [|exact IH]. intro K. apply H in K. congruence.
  Qed.
  Lemma write_spec w f : forall l i arr, (i + length (filter (has_features w f) l) <= length arr)%nat ->
    write_features w f l i arr = Ok (firstn i arr ++ filter (has_features w f) l ++ skipn (i + length (filter (has_features w f) l)) arr).
  Proof.
    clear heap jen feat. induction l as [|e l IH]; intros i arr L; cbn [write_features filter].
    - cbn. rewrite Nat.add_0_r. now rewrite firstn_skipn.
    - destruct (has_features w f e) eqn:H; [|apply IH; cbn [filter] in L; now rewrite H in L]. cbn [filter] in L. rewrite H in L. cbn [length] in *. destruct (Nat.ltb_spec i (length arr)); [|lia].
      assert (LF : length (firstn i arr) = i) by (rewrite firstn_length; lia).
      rewrite IH by (rewrite app_length, LF; cbn [length]; rewrite skipn_length; lia). f_equal.
      assert (E1 : firstn (Datatypes.S i) (firstn i arr ++ e :: skipn (Datatypes.S i) arr) = firstn i arr ++ [e]).
      { rewrite firstn_app, LF. rewrite (firstn_all2 (firstn i arr)) by lia. replace (Datatypes.S i - i)%nat with 1%nat by lia. reflexivity. }
      rewrite E1, <- app_assoc. f_equal. cbn [app]. f_equal. f_equal. rewrite skipn_app, LF. rewrite (skipn_all2 (firstn i arr)) by lia. cbn [app].
      set (n := length (filter (has_features w f) l)). replace (Datatypes.S i + n - i)%nat with (1 + n)%nat by lia. change (skipn (1 + n) (e :: skipn (Datatypes.S i) arr)) with (skipn n (skipn (Datatypes.S i) arr)). rewrite CodecProofs.skipn_skipn'. f_equal. lia.
  Qed.
  Theorem answer_features_spec w f l arr : wfw w -> exists l', restricted (fun e => same_binding (w_features w f) (w_features w (ev_features (w_eval w e)))) l l' /\
    read 0 l' (option_map (@length Z) arr) (answer_features w f l arr).
  Proof.
    clear heap jen feat. intro W. exists (filter (has_features w f) l). split; [apply filter_restricted; intro e; now apply has_features_iff|].
    unfold answer_features. rewrite count_filter. destruct arr as [a|]; cbn [option_map]; [|constructor]. unfold refute.
    destruct (Nat.ltb_spec (length a) (length (filter (has_features w f) l))); cbn [bind]; [now apply read_small|].
    rewrite write_spec by (cbn; lia). cbn [bind firstn app Nat.add]. set (k := filter (has_features w f) l) in *.
    rewrite firstn_app, Nat.sub_diag, firstn_all. cbn [firstn]. rewrite app_nil_r. apply read_filled; [lia|]. f_equal. rewrite app_length, skipn_length. lia.
  Qed.

  (** ** Suggestions *)
  Variable w : world.
  Variable samples : nat -> res (list Z).
  Theorem suggest_spec t draw : 0 <= draw -> t_optima t <> [] ->
    exists o, nth_error (t_optima t) (Z.to_nat (draw mod lenZ (t_optima t))) = Some o /\ In o (t_optima t) /\ suggest w samples t draw = Ok (ev_config (w_eval w o)).
  Proof.
    clear heap jen feat. intros D N. unfold suggest. destruct (t_optima t) as [|x l] eqn:E; [contradiction|]. rewrite <- E in *. clear E x l.
    assert (L : 0 < lenZ (t_optima t)). { unfold lenZ. destruct (t_optima t); [contradiction|cbn [length]; lia]. }
    pose proof (Z.mod_pos_bound draw _ L) as M. destruct (nth_error (t_optima t) (Z.to_nat (draw mod lenZ (t_optima t)))) as [o|] eqn:NE.
    - exists o. split; [reflexivity|]. split; [now apply nth_error_In in NE|reflexivity].
    - apply nth_error_None in NE. unfold lenZ in *. lia.
  Qed.
  Lemma pick_spec f : forall l i, (0 <= i)%Z -> pick w f l i = match nth_error (filter (has_features w f) l) (Z.to_nat i) with Some o => Ok o | None => UB UBBounds end.
  Proof.
    induction l as [|e l IH]; intros i I; cbn [pick filter]; [now destruct (Z.to_nat i)|]. destruct (has_features w f e); [|now apply IH].
    destruct (Z.eqb_spec i 0) as [-> |N]; [reflexivity|]. rewrite IH by lia. replace (Z.to_nat i) with (Datatypes.S (Z.to_nat (i - 1))) by lia. reflexivity.
  Qed.
  Theorem suggest_features_spec t f draw : 0 <= draw -> check_features heap jen w (t_fspace t) f = Ok true ->
    let mine := filter (has_features w f) (t_optima t) in
    match mine with
    | [] => suggest_features heap jen w samples t f draw = ask_one samples
    | _ => exists o, nth_error mine (Z.to_nat (draw mod lenZ mine)) = Some o /\ suggest_features heap jen w samples t f draw = Ok (ev_config (w_eval w o))
    end.
  Proof.
    intros D C mine. unfold suggest_features. rewrite C. cbn [bind refute negb]. rewrite count_filter. fold mine. destruct mine as [|x l] eqn:E; [reflexivity|].
    cbn [length]. rewrite <- E. assert (EL : Z.of_nat (Datatypes.S (length l)) = lenZ mine) by (rewrite E; reflexivity). rewrite EL.
    assert (L : 0 < lenZ mine) by (rewrite <- EL; lia). pose proof (Z.mod_pos_bound draw _ L) as M. rewrite pick_spec by lia. fold mine.
    destruct (nth_error mine (Z.to_nat (draw mod lenZ mine))) as [o|] eqn:NE; [exists o; auto|]. apply nth_error_None in NE. unfold lenZ in *. lia.
  Qed.
End Tuner.

(** ** The properties *)
Theorem history_told : forall heap jen feat fs calls t, (forall w es f, In (w, es) calls -> wf_binding (w_features w f)) ->
  tells heap jen feat (create_tuner fs) calls = Ok t -> t_history t = told calls.
Proof.
  intros heap jen feat fs calls t W E. eapply tells_history in E; [exact (proj1 E)|]. apply Forall_forall. intros [w es] I f. now apply (W w es).
Qed.
Theorem front_kept : forall heap jen feat fs s calls final, (forall f, wf_binding (w_features final f)) -> settled calls final ->
  (forall e, In e (told calls) -> ev_space (w_eval final e) = s /\ ok_result final e /\ assessed heap jen final e) ->
  exists t, tells heap jen feat (create_tuner fs) calls = Ok t /\ t_history t = told calls /\
    front heap jen feat final (told calls) (t_optima t) /\
    (forall f, In f (told calls) -> exists o, In o (t_optima t) /\ (dominates heap jen feat final o f \/ tied heap jen feat final o f)).
Proof. intros heap jen feat fs s calls final W ST F. exact (optima_front heap jen feat fs s calls final W ST F). Qed.
Theorem front_unique : forall heap jen feat w hist o o', front heap jen feat w hist o -> front heap jen feat w hist o' -> o = o'.
Proof. intros heap jen feat w hist o o' F F'. exact (selects_func _ _ _ _ _ F F'). Qed.
Theorem one_told : forall heap jen feat w t e t', (forall f, wf_binding (w_features w f)) -> tell heap jen feat w t [e] = Ok t' ->
  (ev_result (w_eval w e) <> 0 /\ t' = t) \/
  (ev_result (w_eval w e) = 0 /\ t_history t' = t_history t ++ [e] /\ retold heap jen feat w e (t_optima t) (t_optima t') /\ t_fspace t' = t_fspace t).
Proof.
  intros heap jen feat w t e t' W E. cbn [tell] in E. destruct (tell_one heap jen feat w t e) as [t1| |] eqn:T; try discriminate. injection E as <-.
  now apply tell_one_spec.
Qed.
Theorem split_told : forall heap jen feat w es es' t, tell heap jen feat w t (es ++ es') = (do t1 <- tell heap jen feat w t es; tell heap jen feat w t1 es').
Proof.
  intros heap jen feat w. induction es as [|e es IH]; intros es' t; cbn [app tell]; [reflexivity|]. destruct (tell_one heap jen feat w t e); cbn [bind]; auto.
Qed.
Lemma minus_all heap jen feat w e : forall l, (forall o, In o l -> compares heap jen feat w e o (Ok 2)) -> forall l', minus_beaten heap jen feat w e l l' -> l' = l.
Proof.
  induction l as [|o l IH]; intros C l' M; inversion M; subst; auto.
  - assert (X : Ok (-1) = Ok 2) by (eapply compares_func; [eassumption|apply C; now left]). discriminate.
  - f_equal. apply IH; auto. intros; apply C; now right.
Qed.
Theorem incomparable_told : forall heap jen feat w t e t', (forall f, wf_binding (w_features w f)) -> tell heap jen feat w t [e] = Ok t' ->
  ev_result (w_eval w e) = 0 -> (forall o, In o (t_optima t) -> compare heap jen w feat e o = Ok NOT_COMPARABLE) ->
  t_optima t' = t_optima t ++ [e].
Proof.
  intros heap jen feat w t e t' W E R NC. destruct (one_told heap jen feat w t e t' W E) as [[N _]|(_ & _ & RT & _)]; [contradiction|].
  assert (C : forall o, In o (t_optima t) -> compares heap jen feat w e o (Ok 2)).
  { intros o I. specialize (NC o I). unfold NOT_COMPARABLE in NC. rewrite <- NC. now apply compare_spec. }
  inversion RT as [l l' M E1 E2|l1 o l2 l' M K E1 E2|l1 o l2 l' c M K E1 E2]; subst.
  - now rewrite (minus_all heap jen feat w e _ C l' M).
  - assert (I : In o (t_optima t)) by (rewrite <- E1; apply in_or_app; right; now left). destruct K as [K|K]; pose proof (compares_func heap jen feat w e o _ _ K (C o I)); discriminate.
  - assert (I : In o (t_optima t)) by (rewrite <- E1; apply in_or_app; right; now left). pose proof (compares_func heap jen feat w e o _ _ K (C o I)); discriminate.
Qed.
(** what is lost when a comparison fails: what the evaluation beats, and the optimum it
    cannot be compared with *)
Theorem failure_told : forall heap jen feat w t e t' l1 o l2 c, (forall f, wf_binding (w_features w f)) -> tell heap jen feat w t [e] = Ok t' ->
  ev_result (w_eval w e) = 0 -> t_optima t = l1 ++ o :: l2 -> (forall x, In x l1 -> compare heap jen w feat e x = Ok NOT_COMPARABLE) ->
  compare heap jen w feat e o = Err c -> t_optima t' = l1 ++ l2.
Proof.
  intros heap jen feat w t e t' l1 o l2 c W E R O NC F.
  assert (SW : forall a acc, (forall x, In x a -> compare heap jen w feat e x = Ok NOT_COMPARABLE) ->
    sweep heap jen feat w e (a ++ o :: l2) false acc = Ok (true, (acc ++ a) ++ l2)).
  { induction a as [|x a IH]; intros acc NA; cbn [app sweep].
    - rewrite F, sweep_true. now rewrite app_nil_r.
    - rewrite (NA x) by now left. cbn. rewrite IH by (intros; apply NA; now right). now rewrite <- !app_assoc. }
  cbn [tell] in E. unfold tell_one, CCS_RESULT_SUCCESS in E. rewrite R in E. cbn [Z.eqb] in E. rewrite O, (SW l1 []) in E by assumption. cbn in E. now injection E as <-.
Qed.
Theorem suggested : forall w samples t draw,
  (t_optima t = [] -> suggest w samples t draw = ask_one samples) /\
  (t_optima t <> [] -> 0 <= draw -> exists o, nth_error (t_optima t) (Z.to_nat (draw mod lenZ (t_optima t))) = Some o /\
     suggest w samples t draw = Ok (ev_config (w_eval w o))) /\
  (forall i o, nth_error (t_optima t) i = Some o -> lenZ (t_optima t) <= 2 ^ 64 ->
     exists d, 0 <= d < 2 ^ 64 /\ suggest w samples t d = Ok (ev_config (w_eval w o))).
Proof.
  intros w samples t draw. split; [|split].
  - intro E. unfold suggest. now rewrite E.
  - intros N D. destruct (suggest_spec w samples t draw D N) as (o & E & _ & S). exists o. auto.
  - intros i o NE L. assert (Li : (i < length (t_optima t))%nat) by (apply nth_error_Some; now rewrite NE).
    assert (N : t_optima t <> []) by (intro E; rewrite E in Li; cbn in Li; lia).
    exists (Z.of_nat i). split; [unfold lenZ in L; lia|]. destruct (suggest_spec w samples t (Z.of_nat i) ltac:(lia) N) as (o' & E & _ & S).
    rewrite Z.mod_small in E by (unfold lenZ; lia). rewrite Nat2Z.id, NE in E. injection E as <-. exact S.
Qed.
Theorem asked : forall samples,
  (forall c l, samples 1%nat = Ok (c :: l) -> ask_one samples = Ok c) /\ (forall x, samples 1%nat = Err x -> ask_one samples = Err x) /\
  (ask samples None = Ok (None, 1%nat)) /\ (forall n l, samples n = Ok l -> ask samples (Some n) = Ok (Some l, n)) /\
  (forall n x, samples n = Err x -> ask samples (Some n) = Err x).
Proof. intros s. unfold ask_one, ask. repeat split; intros; try rewrite H; reflexivity. Qed.
Theorem suggested_features : forall heap jen w samples t f draw, (forall g, wf_binding (w_features w g)) -> 0 <= draw ->
  (forall c, check_features heap jen w (t_fspace t) f = Err c ->
     suggest_features heap jen w samples t f draw = Err c /\ forall arr, ask_features heap jen w samples t f arr = Err c) /\
  (check_features heap jen w (t_fspace t) f = Ok false ->
     suggest_features heap jen w samples t f draw = Err ERR_INVALID_FEATURES /\ forall arr, ask_features heap jen w samples t f arr = Err ERR_INVALID_FEATURES) /\
  (check_features heap jen w (t_fspace t) f = Ok true ->
     (forall arr, ask_features heap jen w samples t f arr = ask samples arr) /\
     exists mine, restricted (fun e => same_binding (w_features w f) (w_features w (ev_features (w_eval w e)))) (t_optima t) mine /\
     (mine = [] -> suggest_features heap jen w samples t f draw = ask_one samples) /\
     (mine <> [] -> exists o, nth_error mine (Z.to_nat (draw mod lenZ mine)) = Some o /\
        suggest_features heap jen w samples t f draw = Ok (ev_config (w_eval w o)))).
Proof.
  intros heap jen w samples t f draw W D. unfold ask_features. split; [|split].
  - intros c E. unfold suggest_features. rewrite E. auto.
  - intros E. unfold suggest_features. rewrite E. auto.
  - intros E. split; [intro arr; rewrite E; reflexivity|]. exists (filter (has_features w f) (t_optima t)). split; [apply filter_restricted; intro e; now apply has_features_iff|].
    pose proof (suggest_features_spec heap jen w samples t f draw D E) as S. cbv zeta in S.
    destruct (filter (has_features w f) (t_optima t)) as [|x l]; split; intro K; try contradiction; try discriminate; auto.
Qed.
Theorem queried : forall t arr, read 0 (t_optima t) arr (get_optima t arr) /\ read 0 (t_history t) arr (get_history t arr).
Proof. intros t arr. split; apply answer_spec. Qed.
Theorem queried_features : forall w t f arr, (forall g, wf_binding (w_features w g)) ->
  let mine e := same_binding (w_features w f) (w_features w (ev_features (w_eval w e))) in
  (exists l, restricted mine (t_optima t) l /\ read 0 l (option_map (@length Z) arr) (get_optima_features w t f arr)) /\
  (exists l, restricted mine (t_history t) l /\ read 0 l (option_map (@length Z) arr) (get_history_features w t f arr)).
Proof. intros w t f arr W mine. split; now apply answer_features_spec. Qed.
