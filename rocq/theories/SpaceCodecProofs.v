(** Proofs about the restoration of features spaces and objective spaces. *)
From Coq Require Import ZArith List Bool Lia Arith.
From Verif Require Import Base Datum CodecModel CodecSpec CodecProofs CmpModel CmpSpec CmpProofs ParamModel ParamSpec ParamCodec ContextModel ContextSpec ContextProofs MapModel MapProofs ExprModel ExprSpec ExprProofs ExprCodec RngModel TreeModel TreeCodecSpec TreeCodec RngProofs TreeSpaceSpec TreeSpaceCodec TreeConfModel RestoreModel RestoreSpec RestoreProofs TunerCodecSpec TunerCodecProofs EvalModel EvalSpec EvalFacts SpaceCodecModel SpaceCodecSpec.
Import ListNotations.
Open Scope Z_scope.

(** ** Readers that end with undefined behaviour *)
Definition dies {A} (L : nat) (de : rstate -> res (A * rstate)) (bs : list Z) : Prop :=
  (length bs <= L)%nat -> forall tl n, lenZ bs <= n <= lenZ (bs ++ tl) -> n < 2 ^ 64 -> de (mkR (bs ++ tl) n) = UB UBBounds.
Lemma dies_now {A} L (de : rstate -> res (A * rstate)) bs : (forall s, de s = UB UBBounds) -> dies L de bs.
Proof. intros H _ tl n _ _. apply H. Qed.
Lemma dies_bind {A B} u L (f : rstate -> res (A * rstate)) (k : A * rstate -> res (B * rstate)) a bs cs :
  dec u L f a bs -> ((length bs <= L)%nat -> dies (L - length bs) (fun s => k (a, s)) cs) -> dies L (fun s => bind (f s) k) (bs ++ cs).
Proof.
  intros [F _] K N tl n R R'. rewrite app_length in N. rewrite lenZ_app in R. rewrite <- app_assoc in *. pose proof (lenZ_nonneg cs). pose proof (lenZ_nonneg bs).
  pose proof (lenZ_nonneg tl). rewrite !lenZ_app in R.
  rewrite F; [|lia|rewrite !lenZ_app; lia|exact R']. cbn [bind]. apply (K ltac:(lia)); [lia| |lia]. rewrite lenZ_app. lia.
Qed.
Lemma dies_head {A B} L (f : rstate -> res (A * rstate)) (k : A * rstate -> res (B * rstate)) bs cs :
  dies L f bs -> dies L (fun s => bind (f s) k) (bs ++ cs).
Proof.
  intros F N tl n R R'. rewrite app_length in N. pose proof (lenZ_nonneg cs). pose proof (lenZ_nonneg bs). pose proof (lenZ_nonneg tl).
  rewrite <- app_assoc in *. rewrite F; [reflexivity|lia| |exact R']. rewrite !lenZ_app in *. lia.
Qed.
Lemma dies_uses {A} (de : rstate -> res (A * rstate)) bs : (forall L, dies L de bs) -> uses_freed de bs.
Proof. intros D tl n N N'. apply (D (length bs)); auto. Qed.
Ltac ub := eapply dies_bind; [|intros _; cbv beta iota].

(** ** Notes *)
Section Notes.
  Variable jen : list Z -> Z.
  Definition assoc (h : Z) (l : notes) : option (Z * Z) := find (fun x => fst x =? h) l.
  Definition handled (l : notes) : Prop := Forall (fun x => in_unsigned 64 (fst x)) l.
  Lemma note_matches h k fl fl' : in_unsigned 64 h -> in_unsigned 64 k -> forall v,
    key_matches jen (mkDatum (VObject h) fl) (mkDatum (VObject k) fl', v) = (k =? h).
  Proof.
    intros H K v. pose proof (key_matches_spec jen (fun _ => 0) (mkDatum (VObject h) fl) (mkDatum (VObject k) FLAG_ID, ccs_none)) as S.
    assert (E : forall fl' v, key_matches jen (mkDatum (VObject h) fl) (mkDatum (VObject k) fl', v) = key_matches jen (mkDatum (VObject h) fl) (mkDatum (VObject k) FLAG_ID, ccs_none)) by reflexivity.
    rewrite E. destruct S as [S1 S2]; [exact H| |].
    - split; split; [exact K|discriminate|exact Logic.I|discriminate].
    - destruct (Z.eqb_spec k h) as [->|N]; [apply S2; reflexivity|]. destruct (key_matches _ _ _); [|reflexivity]. specialize (S1 eq_refl). cbn in S1. congruence.
  Qed.
  Lemma find_notes l h fl : handled l -> in_unsigned 64 h ->
    hash_find jen (m_pairs (as_map l)) (mkDatum (VObject h) fl) = option_map (fun x => (mkDatum (VObject (fst x)) FLAG_ID, ccs_object (snd x))) (assoc h l).
  Proof.
    intros HL H. unfold hash_find, assoc, as_map. cbn [m_pairs]. induction HL as [|x l X HL IH]; [reflexivity|]. cbn [map find].
    rewrite note_matches by assumption. destruct (fst x =? h); [reflexivity|exact IH].
  Qed.
  Lemma assoc_none l h : ~ In h (map fst l) -> assoc h l = None.
  Proof.
    unfold assoc. induction l as [|x l IH]; intro N; [reflexivity|]. cbn in *. destruct (Z.eqb_spec (fst x) h); [tauto|]. apply IH. tauto.
  Qed.
  Lemma assoc_some l h : In h (map fst l) -> exists x, assoc h l = Some x.
  Proof.
    unfold assoc. induction l as [|x l IH]; intros []; cbn; [destruct (Z.eqb_spec (fst x) h); [eauto|contradiction]|].
    destruct (fst x =? h); eauto.
  Qed.
  Lemma assoc_app l l' h : ~ In h (map fst l) -> assoc h (l ++ l') = assoc h l'.
  Proof.
    unfold assoc. induction l as [|x l IH]; intro N; [reflexivity|]. cbn in *. destruct (Z.eqb_spec (fst x) h); [tauto|]. apply IH. tauto.
  Qed.
  Lemma assoc_left l l' h x : assoc h l = Some x -> assoc h (l ++ l') = Some x.
  Proof.
    unfold assoc. induction l as [|y l IH]; [discriminate|]. cbn. destruct (fst y =? h); auto.
  Qed.
  Lemma note_fresh l h g : handled l -> in_unsigned 64 h -> ~ In h (map fst l) -> note jen l h g = Ok (l ++ [(h, g)]).
  Proof. intros HL H N. unfold note, map_exist. now rewrite find_notes, assoc_none. Qed.
  Lemma note_again l h g : handled l -> in_unsigned 64 h -> In h (map fst l) -> released_twice (note jen l h g) = UB UBBounds.
  Proof. intros HL H N. unfold note, map_exist. rewrite find_notes by assumption. destruct (assoc_some _ _ N) as [x ->]. reflexivity. Qed.
  Lemma handled_app l l' : handled l -> handled l' -> handled (l ++ l').
  Proof. intros A B. apply Forall_app. auto. Qed.
End Notes.

(** ** The parameters *)
Section Parameters.
  Variables (jen : list Z -> Z) (le : bool) (heap : Z -> param) (pud : Z -> option (list Z)) (pid : nat -> Z).
  Fixpoint placed (i : nat) (A : list Z) (ps : list param) : list pobj :=
    match A, ps with
    | h :: A, p :: ps => mkP (pid i) p (restored_ud (pud h)) :: placed (S i) A ps
    | _, _ => []
    end.
  Definition noted (hl : option notes) (i : nat) (A : list Z) : option notes :=
    option_map (fun l => l ++ combine A (map pid (seq i (length A)))) hl.
  Definition new_to (hl : option notes) (A : list Z) : Prop :=
    forall l, hl = Some l -> handled l /\ (forall h, In h A -> ~ In h (map fst l)) /\ NoDup A.
  Lemma parameter_written h : storable_parameter jen heap pud h -> exists bs p, wire_parameter heap pud h bs /\
    encodes (ser_parameter le heap pud h) bs /\ size_parameter heap pud h = Ok (lenZ bs) /\ read_back (heap h) p /\
    forall hl i u L, new_to hl [h] -> (u = true -> ud_bytes (pud h) = []) ->
      dec u L (deser_parameter jen le hl (pid i)) (mkP (pid i) p (restored_ud (pud h)), noted hl i [h]) bs.
  Proof.
    intros (H & C & U). destruct (param_roundtrip jen le h H (heap h) C) as (pb & d & W & E & S & D & R).
    destruct (wire_blob_exists (ud_bytes (pud h))) as [ub UB]. exists (pb ++ ub), (with_default (heap h) d).
    split; [exists pb, ub; auto|]. split; [unfold ser_parameter; apply encodes_seq; [exact E|now apply ser_user_data_encodes]|].
    split; [unfold size_parameter; rewrite S; cbn [bind]; rewrite (size_user_data_ok (pud h) ub) by assumption; now rewrite lenZ_app|].
    split; [exists d; auto|]. intros hl i u L NW UD. unfold deser_parameter.
    db; [apply decodes_dec; exact D|]. cbn [fst snd].
    assert (NT : (match hl with None => Ok None | Some l => do l <- released_twice (note jen l h (pid i)); Ok (Some l) end) = Ok (noted hl i [h])).
    { destruct hl as [l|]; [|reflexivity]. destruct (NW l eq_refl) as (HL & F & _). rewrite note_fresh; auto. apply F. now left. }
    rewrite NT. cbn [bind]. rewrite <- (app_nil_r ub). db; [apply (user_data_dec u _ (ud_bytes (pud h))); auto|]. rewrite restored_ud_eq. apply dec_ret.
  Qed.
  Lemma new_cons hl i h A : in_unsigned 64 h -> new_to hl (h :: A) -> new_to hl [h] /\ new_to (noted hl i [h]) A.
  Proof.
    intros H N. split.
    - intros l E. destruct (N l E) as (HL & F & _). split; [exact HL|]. split; [intros x [<-|[]]; apply F; now left|]. repeat constructor. intros [].
    - intros l' E. destruct hl as [l|]; [|discriminate]. cbn in E. injection E as <-. destruct (N l eq_refl) as (HL & F & ND). inversion ND; subst. split; [|split].
      + apply handled_app; [exact HL|]. repeat constructor; apply H.
      + intros x Hx. rewrite map_app. cbn. intro Q. apply in_app_or in Q. destruct Q as [Q|[<-|[]]]; [revert Q; apply F; now right|contradiction].
      + assumption.
  Qed.
  Lemma noted_cons hl i h A : noted (noted hl i [h]) (S i) A = noted hl i (h :: A).
  Proof. destruct hl as [l|]; [|reflexivity]. cbn. f_equal. now rewrite <- app_assoc. Qed.
  Lemma parameters_written A : Forall (storable_parameter jen heap pud) A -> exists bs ps, wire_all (wire_parameter heap pud) A bs /\
    encodes (ser_parameters le heap pud A) bs /\ size_parameters heap pud A = Ok (lenZ bs) /\ Forall2 read_back (map heap A) ps /\
    forall room hl i u L, new_to hl A -> (u = true -> no_data pud A) -> 8 * (Z.of_nat i + lenZ A) <= room ->
      dec u L (deser_parameters jen le pid room (length A) i hl) (placed i A ps, noted hl i A) bs.
  Proof.
    induction 1 as [|h A H F IH].
    - exists [], []. split; [constructor|]. split; [apply encodes_nil|]. split; [reflexivity|]. split; [constructor|]. intros room hl i u L _ _ _. cbn.
      replace (noted hl i []) with hl by (destruct hl; cbn; now rewrite ?app_nil_r). apply dec_ret.
    - destruct (parameter_written h H) as (b & p & W & E & S & R & D). destruct IH as (bs & ps & WS & ES & SS & RS & DS).
      exists (b ++ bs), (p :: ps). split; [now constructor|]. split; [cbn [ser_parameters]; now apply encodes_seq|].
      split; [cbn [size_parameters]; rewrite S, SS; cbn [bind]; now rewrite lenZ_app|]. split; [now constructor|].
      intros room hl i u L N U RM. cbn [length deser_parameters placed]. rewrite lenZ_cons in RM. pose proof (lenZ_nonneg A).
      replace (room <? 8 * (Z.of_nat i + 1)) with false by (symmetry; apply Z.ltb_ge; lia).
      destruct (new_cons hl i h A (proj1 H) N) as [N1 N2].
      db; [apply D; [exact N1|intro Q; specialize (U Q); now inversion U]|]. cbn [fst snd].
      rewrite <- (app_nil_r bs). db; [apply DS; [exact N2|intro Q; specialize (U Q); now inversion U|lia]|]. cbn [fst snd]. rewrite noted_cons. apply dec_ret.
  Qed.
  Lemma placed_ids i A ps : length A = length ps -> map po_id (placed i A ps) = map pid (seq i (length A)).
  Proof. revert i ps. induction A as [|h A IH]; intros i [|p ps] E; try discriminate; [reflexivity|]. cbn in *. f_equal. apply IH. congruence. Qed.
  Lemma placed_same i A ps : Forall2 read_back (map heap A) ps -> Forall2 (fun h q => read_back (heap h) (po_param q) /\ po_ud q = restored_ud (pud h)) A (placed i A ps).
  Proof.
    revert i ps. induction A as [|h A IH]; intros i ps F; inversion F; subst; cbn; constructor; auto.
  Qed.
  Lemma back_name p p' : read_back p p' -> p_name p' = p_name p /\ p_type p' = p_type p.
  Proof. intros (d & -> & _). auto. Qed.
  Lemma placed_names i A ps : Forall2 read_back (map heap A) ps -> map (fun q => p_name (po_param q)) (placed i A ps) = map (fun h => p_name (heap h)) A.
  Proof.
    revert i ps. induction A as [|h A IH]; intros i ps F; inversion F as [|x y a b R F']; subst; cbn; [reflexivity|]. f_equal; [apply (back_name _ _ R)|now apply IH].
  Qed.
End Parameters.

(** ** Adding them to a space *)
Lemma find_agree h1 h2 c l : (forall h, In h l -> h1 h = h2 h) -> forall k dims, l = map fst dims -> add_parameters h1 k c dims = add_parameters h2 k c dims.
Proof.
  intros AG k dims. revert c l AG. induction dims as [|[h dim] dims IH]; intros c l AG E; [reflexivity|]. subst l. cbn [add_parameters].
  assert (E : add_parameter h1 k c h dim = add_parameter h2 k c h dim).
  { unfold add_parameter, push_parameter. rewrite (AG h) by now left. reflexivity. }
  rewrite E. destruct (add_parameter h2 k c h dim) as [r c1]. destruct (r =? CCS_RESULT_SUCCESS); [|reflexivity]. apply (IH c1 (map fst dims)); [|reflexivity]. intros x Hx. apply AG. now right.
Qed.
Lemma all_added heap k : forall l A r B, NoDup (map (fun h => p_name (heap h)) (A ++ map fst l)) ->
  (k = KConfiguration -> Forall (fun x => p_type (heap (fst x)) <> PSTRING /\ (snd x = None \/ snd x = Some 1)) l) ->
  space_adds heap k A l r B -> r = 0 /\ B = A ++ map fst l.
Proof.
  induction l as [|[h dim] l IH]; intros A r B ND KC S.
  - inversion S; subst. now rewrite app_nil_r.
  - assert (AD : forall r' B', admits heap k A h dim r' B' -> r' = 0 /\ B' = A ++ [h]).
    { intros r' B' Ad. destruct Ad as [E P|_ [g [I E]]|d K _ _ D1 D2|].
      - exfalso. specialize (KC E). inversion KC as [|? ? [X _] _]; subst. exact (X P).
      - exfalso. rewrite map_app in ND. cbn [map fst] in ND. apply NoDup_remove_2 in ND. apply ND. apply in_or_app. left. unfold name_of in E. rewrite <- E. now apply (in_map (fun h => p_name (heap h))).
      - exfalso. specialize (KC K). inversion KC as [|? ? [_ X] _]; subst. cbn in X. destruct X; congruence.
      - auto. }
    inversion S as [|? ? ? B' ? ? ? Ad S'|? ? ? ? ? ? Ad NZ]; subst.
    + destruct (AD _ _ Ad) as [_ ->]. cbn [map fst] in *. replace (A ++ h :: map fst l) with ((A ++ [h]) ++ map fst l) in * by now rewrite <- app_assoc.
      apply (IH (A ++ [h])); auto. intro K. specialize (KC K). now inversion KC.
    + destruct (AD _ _ Ad). contradiction.
Qed.

Lemma find_here ps q : NoDup (map po_id ps) -> In q ps -> at_address ps (po_id q) = po_param q.
Proof.
  unfold at_address. induction ps as [|p ps IH]; [intros _ []|]. intros ND [<-|I]; cbn [find]; [now rewrite Z.eqb_refl|]. inversion ND; subst.
  destruct (Z.eqb_spec (po_id p) (po_id q)) as [E|_]; [exfalso; match goal with H : ~ _ |- _ => apply H end; rewrite E; now apply in_map|now apply IH].
Qed.
Lemma space_made k name ps : NoDup (map po_id ps) -> NoDup (map (fun q => p_name (po_param q)) ps) ->
  (k = KConfiguration -> Forall (fun q => p_type (po_param q) <> PSTRING) ps) ->
  exists c', new_space k name ps = Ok c' /\ c_name c' = name /\ forall heap', (forall q, In q ps -> heap' (po_id q) = po_param q) -> good heap' c' (map po_id ps).
Proof.
  intros NI NN KC. set (l := map (fun p => (po_id p, @None Z)) ps). assert (EL : map fst l = map po_id ps) by (unfold l; now rewrite map_map).
  assert (NAME : forall l c r c', add_parameters (at_address ps) k c l = (r, c') -> c_name c' = c_name c).
  { clear. induction l as [|[h dim] l IH]; intros c r c' E; cbn [add_parameters] in E; [now injection E as _ <-|].
    destruct (add_parameter (at_address ps) k c h dim) as [r1 c1] eqn:A1. assert (N1 : c_name c1 = c_name c).
    { unfold add_parameter in A1. destruct (match k with KConfiguration => _ | _ => _ end); [now injection A1 as _ <-|]. destruct (find_name _ _); [now injection A1 as _ <-|].
      destruct k, dim as [d|]; try (now injection A1 as _ <-); destruct (d =? 1); now injection A1 as _ <-. }
    destruct (r1 =? CCS_RESULT_SUCCESS); [rewrite (IH _ _ _ E); exact N1|injection E as _ <-; exact N1]. }
  assert (R : forall heap', (forall q, In q ps -> heap' (po_id q) = po_param q) -> exists c', add_parameters heap' k (new_context name) l = (0, c') /\ good heap' c' (map po_id ps)).
  { intros heap' AG. destruct (adds_spec heap' k l _ _ (good_new heap' name)) as (r & c' & B & E & S & G).
    assert (X : r = 0 /\ B = [] ++ map fst l).
    { apply (all_added heap' k l [] r B); [| |exact S].
      - cbn [app]. rewrite EL, map_map. rewrite (map_ext_in _ (fun q => p_name (po_param q))); [exact NN|]. intros q Hq. now rewrite AG.
      - intro K. specialize (KC K). apply Forall_forall. intros x Hx. apply in_map_iff in Hx. destruct Hx as (q & <- & Hq). cbn. split; [|now left]. rewrite AG by exact Hq. rewrite Forall_forall in KC. now apply KC. }
    destruct X as [-> ->]. cbn [app] in G. rewrite EL in G. eauto. }
  destruct (R (at_address ps) (fun q Hq => find_here ps q NI Hq)) as (c' & E & _). exists c'. unfold new_space. fold l. rewrite E. cbn [Z.eqb CCS_RESULT_SUCCESS]. split; [reflexivity|].
  split; [exact (NAME _ _ _ _ E)|]. intros heap' AG. destruct (R heap' AG) as (c2 & E2 & G).
  assert (EE : add_parameters heap' k (new_context name) l = add_parameters (at_address ps) k (new_context name) l).
  { apply (find_agree heap' (at_address ps) _ (map po_id ps)); [|exact (eq_sym EL)]. intros h Hh. apply in_map_iff in Hh. destruct Hh as (q & <- & Hq). rewrite AG by exact Hq. symmetry. now apply find_here. }
  rewrite EE, E in E2. injection E2 as <-. exact G.
Qed.

(** ** Features spaces *)
Lemma addresses_nodup pid n : addresses pid n -> NoDup (map pid (seq 0 n)).
Proof.
  intros [_ I]. assert (X : forall m i, (i + m <= n)%nat -> NoDup (map pid (seq i m))).
  { induction m as [|m IH]; intros i LE; cbn; constructor; [|apply IH; lia]. intro Q. apply in_map_iff in Q. destruct Q as (j & E & J). apply in_seq in J. apply I in E; lia. }
  apply X. lia.
Qed.
Section Spaces.
  Variables (jen : list Z -> Z) (le : bool) (heap : Z -> param) (pud : Z -> option (list Z)) (pid : nat -> Z).
  Variables (id : Z) (ud : option (list Z)) (c : context) (A : list Z).
  Hypothesis SS : storable_space jen heap pud id ud c A.
  Hypothesis PI : addresses pid (length A).
  Lemma params_are : c_params c = A. Proof. destruct SS as (_ & _ & _ & D & _). exact (describes_params _ jen _ _ D). Qed.
  Lemma names_apart : NoDup (map (fun h => p_name (heap h)) A). Proof. destruct SS as (_ & _ & _ & D & _). exact (proj1 D). Qed.
  Lemma apart : NoDup A. Proof. exact (NoDup_map_inv _ _ names_apart). Qed.
  Lemma rebuilt k i ps : i = O -> Forall2 read_back (map heap A) ps -> (k = KConfiguration -> Forall (fun h => p_type (heap h) <> PSTRING) A) ->
    exists c', new_space k (c_name c) (placed pud pid i A ps) = Ok c' /\ same_space c (placed pud pid i A ps) c' /\ same_parameters heap pud pid A (placed pud pid i A ps).
  Proof.
    intros -> R KC. assert (LL : length A = length ps) by (rewrite <- (map_length heap A); clear -R; induction R; cbn; congruence).
    assert (NI : NoDup (map po_id (placed pud pid 0 A ps))) by (rewrite placed_ids by exact LL; now apply addresses_nodup).
    destruct (space_made k (c_name c) (placed pud pid 0 A ps)) as (c' & E & N & G).
    - exact NI.
    - rewrite (placed_names heap) by exact R. exact names_apart.
    - intro K. specialize (KC K). clear -R KC. revert ps R. generalize O. induction KC as [|h l H KC IH]; intros n ps R; inversion R as [|? ? ? ? RB R']; subst; cbn; constructor; auto.
      cbn. now rewrite (proj2 (back_name _ _ RB)).
    - exists c'. split; [exact E|]. split; [split; [exact N|]; intros heap' AG; apply good_describes; now apply G|]. split; [now apply placed_ids|now apply placed_same].
  Qed.
  Notation de k i m := (deser_features_space jen le pid k i m).
  Definition whole_features : Prop := ud_bytes ud = [] /\ no_data pud A.
  Lemma features_space_made : exists bs ps c', wire_features_space heap pud id ud (c_name c) A bs /\
    encodes (ser_features_space le heap pud id ud c) bs /\ size_features_space heap pud id ud c = Ok (lenZ bs) /\
    same_parameters heap pud pid A ps /\ same_space c ps c' /\ new_space KFeatures (c_name c) ps = Ok c' /\
    forall mem (keep : bool) id' m,
      (refused_memory mem (8 * lenZ A) -> gives (deser_features_space jen le pid mem keep id' m) (Err ERR_OUT_OF_MEMORY) bs True) /\
      (granted mem (8 * lenZ A) -> keep = true -> m id <> None -> gives (deser_features_space jen le pid mem keep id' m) (Err ERR_DUPLICATE_HANDLE) bs True) /\
      (granted mem (8 * lenZ A) -> (keep = true -> m id = None) ->
         gives (deser_features_space jen le pid mem keep id' m)
           (Ok (mkRS ps (mkSpace 9 c' []) (restored_ud ud), if keep then recording m id id' else m)) bs whole_features).
  Proof.
    pose proof SS as (I & U & [NC NL] & D & FP & LA'). destruct (leb128_exists id) as [lh LH]; [destruct I; lia|]. destruct (wire_blob_exists (c_name c ++ [0])) as [nb NB].
    pose proof (lenZ_nonneg A) as L0. destruct (leb128_exists (lenZ A)) as [ln LN]; [exact L0|]. destruct (wire_blob_exists (ud_bytes ud)) as [ub UB].
    destruct (parameters_written jen le heap pud pid A FP) as (pb & ps & WP & EP & SP & RP & DP).
    destruct (rebuilt KFeatures O ps eq_refl RP ltac:(discriminate)) as (c' & NS & SA & SM).
    assert (LA : in_unsigned 64 (lenZ A)) by (split; [exact L0|change (2 ^ 64) with (8 * 2 ^ 61); lia]).
    exists ((9 :: lh) ++ nb ++ ln ++ pb ++ ub), (placed pud pid 0 A ps), c'.
    split; [exists lh, nb, ln, pb, ub; repeat (split; [assumption|]); reflexivity|].
    split.
    { unfold ser_features_space. rewrite params_are. apply encodes_seq; [now apply ser_object_internal_encodes|]. apply encodes_seq; [now apply ser_string_encodes|].
      apply encodes_seq; [apply ser_uint_encodes; auto using okw64|]. apply encodes_seq; [exact EP|]. now apply ser_user_data_encodes. }
    split.
    { unfold size_features_space. change OT_FEATURES_SPACE with 9. rewrite params_are, SP. cbn [bind]. rewrite (size_object_internal_ok 9 id lh) by (auto; lia). rewrite (size_string_ok _ nb) by auto.
      unfold size_size. rewrite (size_uint_ok 64 (lenZ A) ln) by auto using okw64. rewrite (size_user_data_ok ud ub) by auto. f_equal. rewrite !lenZ_app, lenZ_cons. lia. }
    split; [exact SM|]. split; [exact SA|]. split; [exact NS|]. intros mem keep id' m.
    assert (HD : forall u L, dec u L deser_object_internal (9, id) (9 :: lh)) by (intros; apply decodes_dec; apply deser_object_internal_decodes; [lia|exact I|exact LH]).
    assert (ND : forall u L, dec u L deser_string (c_name c) nb) by (intros; apply decodes_dec; now apply deser_string_decodes).
    assert (CD : forall u L, dec u L deser_size (lenZ A) ln) by (intros; apply decodes_dec, deser_uint_decodes; auto using okw64).
    assert (UD : forall u L, (u = true -> ud_bytes ud = []) -> dec u L deser_user_data (ud_bytes ud) ub) by (intros; now apply user_data_dec).
    set (body := fun s => if lenZ A =? 0 then Ok ([], s) else if negb (mem (8 * lenZ A)) then Err ERR_OUT_OF_MEMORY
                   else do (x, s) <- deser_parameters jen le pid (8 * lenZ A) (Z.to_nat (lenZ A)) 0 None s; Ok (fst x, s)).
    assert (PD : granted mem (8 * lenZ A) -> forall u L, (u = true -> no_data pud A) -> dec u L body (placed pud pid 0 A ps) pb).
    { intros G u L N. unfold body. destruct (Z.eqb_spec (lenZ A) 0) as [Z0|NZ].
      - destruct A; [|rewrite lenZ_cons in Z0; pose proof (lenZ_nonneg l); lia]. inversion WP; subst. apply dec_ret.
      - rewrite (G ltac:(lia)). cbn [negb]. rewrite <- (app_nil_r pb). replace (Z.to_nat (lenZ A)) with (length A) by (unfold lenZ; now rewrite Nat2Z.id).
        db; [apply DP; [discriminate|exact N|lia]|]. cbn [fst]. apply dec_ret. }
    split; [|split].
    - intros [NZ RF]. apply (takes_gives _ (Err _)). intro L. unfold deser_features_space. rb; [apply (HD false)|]. cbn [fst snd]. change (negb (9 =? OT_FEATURES_SPACE)) with false. cbn [refute bind].
      rb; [apply (ND false)|]. rb; [apply (CD false)|]. apply rej_head. apply rej_now. intro s. replace (lenZ A =? 0) with false by (symmetry; apply Z.eqb_neq; lia). now rewrite RF.
    - intros G K M. apply (takes_gives _ (Err _)). intro L. unfold deser_features_space. rb; [apply (HD false)|]. cbn [fst snd]. change (negb (9 =? OT_FEATURES_SPACE)) with false. cbn [refute bind].
      rb; [apply (ND false)|]. rb; [apply (CD false)|]. fold body. rb; [apply (PD G false); discriminate|]. rewrite NS. cbn [bind]. subst keep. unfold handle_check_add.
      destruct (m id) as [d|]; [|congruence]. cbn [bind]. now apply rej_now.
    - intros G M. apply (takes_gives _ (Ok _)). intros u L W. unfold deser_features_space. db; [apply HD|]. cbn [fst snd]. change (negb (9 =? OT_FEATURES_SPACE)) with false. cbn [refute bind].
      db; [apply ND|]. db; [apply CD|]. fold body. db; [apply (PD G); intro Q; apply (W Q)|]. rewrite NS. cbn [bind].
      assert (HM : (if keep then handle_check_add m id id' else Ok m) = Ok (if keep then recording m id id' else m)).
      { destruct keep; [|reflexivity]. unfold handle_check_add. now rewrite (M eq_refl). }
      rewrite HM. cbn [bind]. rewrite <- (app_nil_r ub). db; [apply UD; intro Q; apply (W Q)|]. rewrite restored_ud_eq. apply dec_ret.
  Qed.
  Lemma features_space_saved : exists bs ps c', wire_features_space heap pud id ud (c_name c) A bs /\
    encodes (ser_features_space le heap pud id ud c) bs /\ size_features_space heap pud id ud c = Ok (lenZ bs) /\
    same_parameters heap pud pid A ps /\ same_space c ps c' /\
    forall mem (keep : bool) id' m,
      (refused_memory mem (8 * lenZ A) -> gives (deser_features_space jen le pid mem keep id' m) (Err ERR_OUT_OF_MEMORY) bs True) /\
      (granted mem (8 * lenZ A) -> keep = true -> m id <> None -> gives (deser_features_space jen le pid mem keep id' m) (Err ERR_DUPLICATE_HANDLE) bs True) /\
      (granted mem (8 * lenZ A) -> (keep = true -> m id = None) ->
         gives (deser_features_space jen le pid mem keep id' m)
           (Ok (mkRS ps (mkSpace 9 c' []) (restored_ud ud), if keep then recording m id id' else m)) bs whole_features).
  Proof. destruct features_space_made as (bs & ps & c' & H1 & H2 & H3 & H4 & H5 & _ & H6). exists bs, ps, c'. repeat (split; [assumption|]). exact H6. Qed.

  (** ** Objective spaces *)
  Section Objectives.
    Variables (otype : Z -> option Z) (f : Z -> Z).
    Hypothesis OT : forall i, (i < length A)%nat -> otype (pid i) = Some OBJ_PARAMETER.
    Hypothesis MV : moves pid A f.
    Definition shares (hl : notes) : Prop := handled hl /\ (forall h, In h A -> assoc h hl = Some (h, f h)).
    Lemma shares_resolve hl h : shares hl -> In h A -> resolves jen otype (Some (as_map hl)) f h.
    Proof.
      intros [HL S] I. exists (as_map hl). split; [reflexivity|]. split.
      - unfold map_get, ccs_object. rewrite find_notes; [|exact HL|]. { rewrite (S h I). reflexivity. }
        destruct SS as (_ & _ & _ & _ & FP & _). rewrite Forall_forall in FP. exact (proj1 (FP h I)).
      - destruct (In_nth_error _ _ I) as [i N]. rewrite (MV i h N). apply OT. apply nth_error_Some. congruence.
    Qed.
    Lemma shares_more hl x : shares hl -> in_unsigned 64 (fst x) -> shares (hl ++ [x]).
    Proof.
      intros [HL S] U. split; [apply handled_app; [exact HL|repeat constructor; apply U]|]. intros h I. apply assoc_left. now apply S.
    Qed.
    Lemma shares_first : shares (combine A (map pid (seq 0 (length A)))).
    Proof.
      split.
      - destruct SS as (_ & _ & _ & _ & FP & _). clear -FP. generalize (map pid (seq 0 (length A))). induction FP as [|h l H FP IH]; intros [|p ps]; cbn; constructor; [apply H|apply IH].
      - intros h I. assert (X : forall B n, NoDup B -> (forall i x, nth_error B i = Some x -> f x = pid (n + i)%nat) -> In h B -> assoc h (combine B (map pid (seq n (length B)))) = Some (h, f h)).
        { clear. intros B n ND. revert n. induction ND as [|x l NI ND IH]; intros n M I; [destruct I|]; destruct I as [->|I]; unfold assoc in *; cbn [length seq map combine find fst].
          - rewrite Z.eqb_refl. rewrite (M O h eq_refl). now rewrite Nat.add_0_r.
          - destruct (Z.eqb_spec x h) as [->|_]; [contradiction|]. apply IH; [|exact I]. intros i y N. rewrite (M (S i) y N). f_equal. lia. }
        apply X; [exact apart|exact MV|exact I].
    Qed.
    Lemma objective_dec e u L hl eb : wf_expr (fun h => In h A) e -> storable e -> shares hl -> wire_expr e eb -> (u = true -> no_user_data e) ->
      dec u L (deser_expression le jen otype (Some (as_map hl))) (restored f e) eb.
    Proof.
      intros W S SH B U. apply (fuel_dec u L (deser_expr le jen otype (Some (as_map hl)))). intros fuel L' F.
      apply (expr_dec le jen otype (Some (as_map hl)) f (fun h => In h A)); auto. intros h O. apply shares_resolve; [exact SH|]. clear -W O. revert W O. induction e as [o d|o g|o t nodes IH] using expr_rect'; intros W O; inversion W; inversion O; subst; auto.
      rewrite Forall_forall in *. match goal with H : In ?n nodes |- _ => apply (IH n H); auto end.
    Qed.
    Lemma storable_id e : storable e -> in_unsigned 64 (o_id (xobj_of e)).
    Proof. intros []; assumption. Qed.
    Lemma restored_id e : o_id (xobj_of (restored f e)) = o_id (xobj_of e).
    Proof. destruct e as [o d|o h|o t nodes]; destruct o as [oid [[|]|]]; reflexivity. Qed.
    Lemma objectives_exist objs : Forall (storable_objective A) objs -> exists ob, wire_all wire_objective objs ob /\ encodes (ser_objectives le objs) ob /\ size_objectives objs = Ok (lenZ ob).
    Proof.
      induction 1 as [|[e t] objs (W & S & T) F IH]; cbn [fst snd] in *.
      - exists []. split; [constructor|]. split; [apply encodes_nil|reflexivity].
      - destruct (wire_expr_exists _ e W S) as [eb EB]. destruct IH as (ob & OB & E & SZ). destruct (expr_size_encodes le _ e W S eb EB) as [E1 S1].
        assert (TR : 0 <= t < 128) by (unfold MINIMIZE, MAXIMIZE in T; lia).
        exists ((eb ++ [t]) ++ ob). split; [constructor; [exists eb; auto|exact OB]|]. cbn [ser_objectives size_objectives]. split.
        + rewrite <- app_assoc. apply encodes_seq; [exact E1|]. apply encodes_seq; [now apply ser_enum_small|exact E].
        + rewrite S1, SZ. cbn [bind]. rewrite size_enum_small by exact TR. rewrite !lenZ_app. change (lenZ [t]) with 1. f_equal; lia.
    Qed.
    Definition back (o : expr * Z) : expr * Z := (restored f (fst o), snd o).
    Definition after (hl : notes) (objs : list (expr * Z)) : notes := hl ++ map (fun h => (h, h)) (handles objs).
    Lemma objectives_dec np no room : forall objs, Forall (storable_objective A) objs -> forall ob, wire_all wire_objective objs ob ->
      forall i hl u L, shares hl -> NoDup (handles objs) -> (forall h, In h (handles objs) -> ~ In h (map fst hl)) -> 0 <= np ->
      8 * (np + no) + 4 * (Z.of_nat i + lenZ objs) <= room -> Z.of_nat i + lenZ objs <= no -> (u = true -> Forall (fun o => no_user_data (fst o)) objs) ->
      dec u L (deser_objectives jen le otype room np no (length objs) i hl) (map back objs, after hl objs) ob.
    Proof.
      induction 1 as [|[e t] objs (W & S & T) F IH]; intros ob OB i hl u L SH ND FR NP RM LE U; inversion OB as [|a l b bs (eb & EB & EBE) OB']; subst; cbn [fst snd] in *.
      - cbn. unfold after. cbn. rewrite app_nil_r. apply dec_ret.
      - cbn [length deser_objectives map]. rewrite lenZ_cons in *. pose proof (lenZ_nonneg objs). cbn [handles map fst] in *.
        replace (room <? 8 * (np + Z.of_nat i + 1)) with false by (symmetry; apply Z.ltb_ge; lia). inversion ND as [|? ? NI ND']; subst.
        assert (TR : 0 <= t < 128) by (unfold MINIMIZE, MAXIMIZE in T; lia). pose proof (storable_id _ S) as ID.
        rewrite <- !app_assoc. db; [apply objective_dec; [exact W|exact S|exact SH|exact EB|intro Q; specialize (U Q); now inversion U]|].
        rewrite restored_id. rewrite note_fresh; [|apply SH|exact ID|apply FR; now left]. cbn [released_twice bind].
        db; [apply decodes_dec; now apply deser_enum_small|]. replace (room <? 8 * (np + no) + 4 * (Z.of_nat i + 1)) with false by (symmetry; apply Z.ltb_ge; lia).
        rewrite <- (app_nil_r bs). db.
        + apply IH; [exact OB'|apply shares_more; [exact SH|exact ID]|exact ND'| |exact NP|lia|lia|intro Q; specialize (U Q); now inversion U].
          intros h Hh. rewrite map_app. cbn. intro Q. apply in_app_or in Q. destruct Q as [Q|[<-|[]]]; [revert Q; apply FR; now right|contradiction].
        + cbn [fst snd]. replace (after hl ((e, t) :: objs)) with (after (hl ++ [(o_id (xobj_of e), o_id (xobj_of e))]) objs) by (unfold after; cbn; now rewrite <- app_assoc). apply dec_ret.
    Qed.
    Lemma objectives_die np no room : forall objs, Forall (storable_objective A) objs -> forall ob, wire_all wire_objective objs ob ->
      forall i hl L, shares hl -> ~ (NoDup (handles objs) /\ (forall h, In h (handles objs) -> ~ In h (map fst hl))) -> 0 <= np ->
      8 * (np + no) + 4 * (Z.of_nat i + lenZ objs) <= room -> Z.of_nat i + lenZ objs <= no ->
      dies L (deser_objectives jen le otype room np no (length objs) i hl) ob.
    Proof.
      induction 1 as [|[e t] objs (W & S & T) F IH]; intros ob OB i hl L SH BAD NP RM LE; inversion OB as [|a l b bs (eb & EB & EBE) OB']; subst; cbn [fst snd] in *.
      - exfalso. apply BAD. split; [constructor|intros h []].
      - cbn [length deser_objectives map]. rewrite lenZ_cons in *. pose proof (lenZ_nonneg objs). cbn [handles map fst] in *.
        replace (room <? 8 * (np + Z.of_nat i + 1)) with false by (symmetry; apply Z.ltb_ge; lia).
        assert (TR : 0 <= t < 128) by (unfold MINIMIZE, MAXIMIZE in T; lia). pose proof (storable_id _ S) as ID.
        rewrite <- !app_assoc. ub; [apply (objective_dec e false); [exact W|exact S|exact SH|exact EB|discriminate]|].
        rewrite restored_id. destruct (in_dec Z.eq_dec (o_id (xobj_of e)) (map fst hl)) as [IN|NIN].
        + apply dies_now. intro s. rewrite note_again; [reflexivity|apply SH|exact ID|exact IN].
        + rewrite note_fresh; [|apply SH|exact ID|exact NIN]. cbn [released_twice bind].
          ub; [apply (decodes_dec false); now apply deser_enum_small|]. replace (room <? 8 * (np + no) + 4 * (Z.of_nat i + 1)) with false by (symmetry; apply Z.ltb_ge; lia).
          rewrite <- (app_nil_r bs). apply dies_head. apply IH; [exact OB'|apply shares_more; [exact SH|exact ID]| |exact NP|lia|lia].
          intros [ND FR]. apply BAD. split.
          * constructor; [|exact ND]. intro Q. apply (FR _ Q). rewrite map_app. apply in_or_app. right. now left.
          * intros h [<-|Hh]; [exact NIN|]. intro Q. apply (FR h Hh). rewrite map_app. apply in_or_app. now left.
    Qed.
    Lemma occurs_back g e : occurs g (restored f e) -> exists h, occurs h e /\ g = f h.
    Proof.
      clear. induction e as [o d|o h|o t nodes IH] using expr_rect'; cbn [restored]; intro O; inversion O; subst.
      - exists h. split; [constructor|reflexivity].
      - rewrite Forall_forall in IH. match goal with H : In ?n (map _ nodes) |- _ => apply in_map_iff in H; destruct H as (x & <- & Hx) end. destruct (IH x Hx) as (h & Oh & E); [assumption|].
        exists h. split; [exact (occ_op h o t nodes x Hx Oh)|exact E].
    Qed.
    Lemma occurs_known e h : wf_expr (fun h => In h A) e -> occurs h e -> In h A.
    Proof.
      clear. induction e as [o d|o g|o t nodes IH] using expr_rect'; intros W O; inversion W; inversion O; subst; auto.
      rewrite Forall_forall in *. match goal with H : In ?n nodes |- _ => apply (IH n H); auto end.
    Qed.
    Lemma moved_in h : In h A -> exists i, (i < length A)%nat /\ f h = pid i.
    Proof. intro I. destruct (In_nth_error _ _ I) as [i N]. exists i. split; [apply nth_error_Some; congruence|now apply MV]. Qed.
    Variable objs : list (expr * Z).
    Hypothesis SO : Forall (storable_objective A) objs.
    Hypothesis RM : 8 * lenZ A + 12 * lenZ objs < 2 ^ 64.
    Lemma objectives_added ps c' : same_space c ps c' -> same_parameters heap pud pid A ps ->
      add_objectives (mkSpace OT_OBJECTIVE_SPACE c' []) (map back objs) = (0, mkSpace OT_OBJECTIVE_SPACE c' (map back objs)).
    Proof.
      intros [_ DS] [IDS _].
      assert (NI : NoDup (map po_id ps)) by (rewrite IDS; now apply addresses_nodup).
      specialize (DS (at_address ps) (fun q Hq => find_here ps q NI Hq)).
      assert (OCC : forall e t g, In (e, t) (map back objs) -> occurs g e -> In g (map po_id ps) /\ 0 < g).
      { intros e t g I O. apply in_map_iff in I. destruct I as ([e0 t0] & E & I). injection E as <- <-. cbn [fst] in O. apply occurs_back in O. destruct O as (h & O & ->).
        rewrite Forall_forall in SO. destruct (SO _ I) as (W & _). apply (occurs_known _ _ W) in O. destruct (moved_in h O) as (i & LI & ->). rewrite IDS. split.
        - apply in_map. apply in_seq. lia.
        - apply PI. exact LI. }
      destruct (add_objectives_spec (at_address ps) (map po_id ps) (map back objs) (mkSpace OT_OBJECTIVE_SPACE c' [])) as (r & s' & E & T & C & AD).
      - exact DS.
      - intros e t I h O. apply (OCC e t h I O).
      - rewrite E. cbn [sp_type sp_ctx sp_objectives] in *. remember (sp_objectives s') as L eqn:EL. inversion AD as [AL|l1 e t l2 h EN AL O NI']; subst.
        + cbn [app] in *. destruct s' as [t' c0 o']. cbn in *. subst. reflexivity.
        + exfalso. apply NI'. apply (OCC e t h); [rewrite EN; apply in_or_app; right; now left|exact O].
    Qed.
    Definition whole_objectives : Prop := whole_features /\ Forall (fun o => no_user_data (fst o)) objs.
    Lemma objective_space_made sp : sp_ctx sp = c -> sp_objectives sp = objs ->
      exists bs ps c', wire_objective_space heap pud id ud (c_name c) A objs bs /\
        encodes (ser_objective_space le heap pud id ud sp) bs /\ size_objective_space heap pud id ud sp = Ok (lenZ bs) /\
        same_parameters heap pud pid A ps /\ same_space c ps c' /\ new_space KObjective (c_name c) ps = Ok c' /\
        forall mem (keep : bool) id' m,
          (refused_memory mem (8 * lenZ A + 12 * lenZ objs) -> gives (deser_objective_space jen le pid mem otype keep id' m) (Err ERR_OUT_OF_MEMORY) bs True) /\
          (granted mem (8 * lenZ A + 12 * lenZ objs) -> ~ own_handles A objs -> uses_freed (deser_objective_space jen le pid mem otype keep id' m) bs) /\
          (granted mem (8 * lenZ A + 12 * lenZ objs) -> own_handles A objs -> keep = true -> m id <> None ->
             gives (deser_objective_space jen le pid mem otype keep id' m) (Err ERR_DUPLICATE_HANDLE) bs True) /\
          (granted mem (8 * lenZ A + 12 * lenZ objs) -> own_handles A objs -> (keep = true -> m id = None) ->
             gives (deser_objective_space jen le pid mem otype keep id' m)
               (Ok (mkRS ps (mkSpace 6 c' (map back objs)) (restored_ud ud), if keep then recording m id id' else m)) bs whole_objectives).
    Proof.
      intros EC EO. pose proof SS as (I & U & [NC NL] & D & FP & LA'). destruct (leb128_exists id) as [lh LH]; [destruct I; lia|]. destruct (wire_blob_exists (c_name c ++ [0])) as [nb NB].
      pose proof (lenZ_nonneg A) as L0. pose proof (lenZ_nonneg objs) as O0. destruct (leb128_exists (lenZ A)) as [ln LN]; [exact L0|]. destruct (leb128_exists (lenZ objs)) as [lo LO]; [exact O0|].
      destruct (wire_blob_exists (ud_bytes ud)) as [ub UB].
      destruct (parameters_written jen le heap pud pid A FP) as (pb & ps & WP & EP & SP & RP & DP). destruct (objectives_exist objs SO) as (ob & WO & EOB & SOB).
      destruct (rebuilt KObjective O ps eq_refl RP ltac:(discriminate)) as (c' & NS & SA & SM).
      assert (LA : in_unsigned 64 (lenZ A)) by (split; lia). assert (LB : in_unsigned 64 (lenZ objs)) by (split; lia).
      exists ((6 :: lh) ++ nb ++ ln ++ lo ++ pb ++ ob ++ ub), (placed pud pid 0 A ps), c'.
      split; [exists lh, nb, ln, lo, pb, ob, ub; repeat (split; [assumption|]); reflexivity|].
      split.
      { unfold ser_objective_space. rewrite EC, EO, params_are. apply encodes_seq; [now apply ser_object_internal_encodes|]. apply encodes_seq; [now apply ser_string_encodes|].
        apply encodes_seq; [apply ser_uint_encodes; auto using okw64|]. apply encodes_seq; [apply ser_uint_encodes; auto using okw64|]. apply encodes_seq; [exact EP|]. apply encodes_seq; [exact EOB|]. now apply ser_user_data_encodes. }
      split.
      { unfold size_objective_space. change OT_OBJECTIVE_SPACE with 6. rewrite EC, EO, params_are, SP, SOB. cbn [bind]. rewrite (size_object_internal_ok 6 id lh) by (auto; lia). rewrite (size_string_ok _ nb) by auto.
        unfold size_size. rewrite (size_uint_ok 64 (lenZ A) ln) by auto using okw64. rewrite (size_uint_ok 64 (lenZ objs) lo) by auto using okw64. rewrite (size_user_data_ok ud ub) by auto. f_equal. rewrite !lenZ_app, lenZ_cons. lia. }
      split; [exact SM|]. split; [exact SA|]. split; [exact NS|]. intros mem keep id' m.
      assert (HD : forall u L, dec u L deser_object_internal (6, id) (6 :: lh)) by (intros; apply decodes_dec; apply deser_object_internal_decodes; [lia|exact I|exact LH]).
      assert (ND : forall u L, dec u L deser_string (c_name c) nb) by (intros; apply decodes_dec; now apply deser_string_decodes).
      assert (CD : forall u L, dec u L deser_size (lenZ A) ln) by (intros; apply decodes_dec, deser_uint_decodes; auto using okw64).
      assert (OD : forall u L, dec u L deser_size (lenZ objs) lo) by (intros; apply decodes_dec, deser_uint_decodes; auto using okw64).
      assert (UD : forall u L, (u = true -> ud_bytes ud = []) -> dec u L deser_user_data (ud_bytes ud) ub) by (intros; now apply user_data_dec).
      assert (W1 : wrap 64 (lenZ A + lenZ objs) = lenZ A + lenZ objs) by (unfold wrap; apply Z.mod_small; lia).
      assert (W2 : wrap 64 (lenZ A * 8 + lenZ objs * 12) = 8 * lenZ A + 12 * lenZ objs) by (unfold wrap; rewrite Z.mod_small; lia).
      assert (NA : Z.to_nat (lenZ A) = length A) by (unfold lenZ; now rewrite Nat2Z.id). assert (NO : Z.to_nat (lenZ objs) = length objs) by (unfold lenZ; now rewrite Nat2Z.id).
      assert (NW : new_to (Some []) A).
      { intros l [= <-]. split; [constructor|]. split; [intros h _ []|exact apart]. }
      assert (NT : noted pid (Some []) 0 A = Some (combine A (map pid (seq 0 (length A))))) by reflexivity.
      assert (FST : map fst (combine A (map pid (seq 0 (length A)))) = A).
      { assert (LL : length A = length (map pid (seq 0 (length A)))) by now rewrite map_length, seq_length. revert LL. generalize (map pid (seq 0 (length A))). clear. induction A as [|h l IH]; intros [|p ps] LL; try discriminate; [reflexivity|]. cbn. f_equal. apply IH. now injection LL. }
      assert (DD : granted mem (8 * lenZ A + 12 * lenZ objs) -> own_handles A objs -> forall u L, (u = true -> no_data pud A /\ Forall (fun o => no_user_data (fst o)) objs) ->
        dec u L (deser_objective_data jen le pid mem otype) (c_name c, placed pud pid 0 A ps, map back objs) (nb ++ ln ++ lo ++ pb ++ ob)).
      { intros G [OH1 OH2] u L WH. unfold deser_objective_data. db; [apply ND|]. db; [apply CD|]. db; [apply OD|]. rewrite W1. cbv zeta. rewrite W2.
        destruct (Z.eqb_spec (lenZ A + lenZ objs) 0) as [Z0|NZ].
        - assert (ZA : A = []) by (apply lenZ_0; lia). assert (ZO : objs = []) by (apply lenZ_0; lia). replace (lenZ A =? 0) with true by (symmetry; apply Z.eqb_eq; lia).
          rewrite ZA in WP. rewrite ZO in WO. inversion WP; subst pb. inversion WO; subst ob. replace (placed pud pid 0 A ps) with (@nil pobj) by now rewrite ZA. replace (map back objs) with (@nil (expr * Z)) by now rewrite ZO. apply dec_ret.
        - rewrite (G ltac:(lia)). cbn [negb]. rewrite NA, NO. db; [apply DP; [exact NW|intro Q; apply (WH Q)|lia]|]. rewrite NT. cbn [fst snd].
          rewrite <- (app_nil_r ob). db; [apply objectives_dec; [exact SO|exact WO|exact shares_first|exact OH1|intros h Hh; rewrite FST; now apply OH2|exact L0|lia|lia|intro Q; apply (WH Q)]|]. cbn [fst snd]. apply dec_ret. }
      pose proof (objectives_added _ _ SA SM) as OA.
      split; [|split; [|split]].
      - intros [NZ RF]. apply (takes_gives _ (Err _)). intro L. unfold deser_objective_space. rb; [apply (HD false)|]. cbn [fst snd]. change (negb (6 =? OT_OBJECTIVE_SPACE)) with false. cbn [refute bind].
        replace (nb ++ ln ++ lo ++ pb ++ ob ++ ub) with ((nb ++ ln ++ lo ++ pb ++ ob) ++ ub) by now rewrite <- !app_assoc. apply rej_head. unfold deser_objective_data.
        rb; [apply (ND false)|]. rb; [apply (CD false)|]. rb; [apply (OD false)|]. rewrite W1. cbv zeta. rewrite W2. apply rej_now. intro s. replace (lenZ A + lenZ objs =? 0) with false by (symmetry; apply Z.eqb_neq; lia). now rewrite RF.
      - intros G BAD. apply dies_uses. intro L. unfold deser_objective_space. ub; [apply (HD false)|]. cbn [fst snd]. change (negb (6 =? OT_OBJECTIVE_SPACE)) with false. cbn [refute bind].
        replace (nb ++ ln ++ lo ++ pb ++ ob ++ ub) with ((nb ++ ln ++ lo ++ pb ++ ob) ++ ub) by now rewrite <- !app_assoc. apply dies_head. unfold deser_objective_data.
        ub; [apply (ND false)|]. ub; [apply (CD false)|]. ub; [apply (OD false)|]. rewrite W1. cbv zeta. rewrite W2.
        destruct (Z.eqb_spec (lenZ A + lenZ objs) 0) as [Z0|NZ]; [exfalso; apply BAD; assert (ZO : objs = []) by (apply lenZ_0; lia); rewrite ZO; split; [constructor|intros h []]|].
        rewrite (G ltac:(lia)). cbn [negb]. rewrite NA, NO. ub; [apply (DP _ _ _ false); [exact NW|discriminate|lia]|]. rewrite NT. cbn [fst snd].
        rewrite <- (app_nil_r ob). apply dies_head. apply objectives_die; [exact SO|exact WO|exact shares_first| |exact L0|lia|lia]. rewrite FST. exact BAD.
      - intros G OH K M. apply (takes_gives _ (Err _)). intro L. unfold deser_objective_space. rb; [apply (HD false)|]. cbn [fst snd]. change (negb (6 =? OT_OBJECTIVE_SPACE)) with false. cbn [refute bind].
        replace (nb ++ ln ++ lo ++ pb ++ ob ++ ub) with ((nb ++ ln ++ lo ++ pb ++ ob) ++ ub) by now rewrite <- !app_assoc.
        rb; [apply (DD G OH false); discriminate|]. cbv beta iota. rewrite NS. cbn [bind]. rewrite OA. cbn [Z.eqb CCS_RESULT_SUCCESS negb refute bind]. subst keep. unfold handle_check_add.
        destruct (m id) as [d|]; [|congruence]. cbn [bind]. now apply rej_now.
      - intros G OH M. apply (takes_gives _ (Ok _)). intros u L W. unfold deser_objective_space. db; [apply HD|]. cbn [fst snd]. change (negb (6 =? OT_OBJECTIVE_SPACE)) with false. cbn [refute bind].
        replace (nb ++ ln ++ lo ++ pb ++ ob ++ ub) with ((nb ++ ln ++ lo ++ pb ++ ob) ++ ub) by now rewrite <- !app_assoc.
        db; [apply (DD G OH); intro Q; destruct (W Q) as [[_ X] Y]; split; assumption|]. cbv beta iota. rewrite NS. cbn [bind]. rewrite OA. cbn [Z.eqb CCS_RESULT_SUCCESS negb refute bind].
        assert (HM : (if keep then handle_check_add m id id' else Ok m) = Ok (if keep then recording m id id' else m)).
        { destruct keep; [|reflexivity]. unfold handle_check_add. now rewrite (M eq_refl). }
        rewrite HM. cbn [bind]. rewrite <- (app_nil_r ub). db; [apply UD; intro Q; apply (W Q)|]. rewrite restored_ud_eq. apply dec_ret.
    Qed.
    Lemma objective_space_saved sp : sp_ctx sp = c -> sp_objectives sp = objs ->
      exists bs ps c', wire_objective_space heap pud id ud (c_name c) A objs bs /\
        encodes (ser_objective_space le heap pud id ud sp) bs /\ size_objective_space heap pud id ud sp = Ok (lenZ bs) /\
        same_parameters heap pud pid A ps /\ same_space c ps c' /\
        forall mem (keep : bool) id' m,
          (refused_memory mem (8 * lenZ A + 12 * lenZ objs) -> gives (deser_objective_space jen le pid mem otype keep id' m) (Err ERR_OUT_OF_MEMORY) bs True) /\
          (granted mem (8 * lenZ A + 12 * lenZ objs) -> ~ own_handles A objs -> uses_freed (deser_objective_space jen le pid mem otype keep id' m) bs) /\
          (granted mem (8 * lenZ A + 12 * lenZ objs) -> own_handles A objs -> keep = true -> m id <> None ->
             gives (deser_objective_space jen le pid mem otype keep id' m) (Err ERR_DUPLICATE_HANDLE) bs True) /\
          (granted mem (8 * lenZ A + 12 * lenZ objs) -> own_handles A objs -> (keep = true -> m id = None) ->
             gives (deser_objective_space jen le pid mem otype keep id' m)
               (Ok (mkRS ps (mkSpace 6 c' (map back objs)) (restored_ud ud), if keep then recording m id id' else m)) bs whole_objectives).
    Proof. intros EC EO. destruct (objective_space_made sp EC EO) as (bs & ps & c' & H1 & H2 & H3 & H4 & H5 & _ & H6). exists bs, ps, c'. repeat (split; [assumption|]). exact H6. Qed.
  End Objectives.
End Spaces.

(** ** Other objects *)
Lemma other_space jen le pid mem otype keep id m ty h lh : 0 <= ty < 128 -> in_unsigned 64 h -> leb128 h lh ->
  (ty <> 9 -> gives (deser_features_space jen le pid mem keep id m) (Err ERR_INVALID_TYPE) (ty :: lh) True) /\
  (ty <> 6 -> gives (deser_objective_space jen le pid mem otype keep id m) (Err ERR_INVALID_TYPE) (ty :: lh) True).
Proof.
  intros T I L. split; intro N; apply takes_gives; cbn [takes]; intro L0; rewrite <- (app_nil_r (ty :: lh)).
  - unfold deser_features_space. rb; [apply (decodes_dec false), (deser_object_internal_decodes ty h lh T I L)|].
    cbn [fst]. destruct (Z.eqb_spec ty OT_FEATURES_SPACE); [contradiction|]. cbn [negb refute bind]. now apply rej_now.
  - unfold deser_objective_space. rb; [apply (decodes_dec false), (deser_object_internal_decodes ty h lh T I L)|].
    cbn [fst]. destruct (Z.eqb_spec ty OT_OBJECTIVE_SPACE); [contradiction|]. cbn [negb refute bind]. now apply rej_now.
Qed.
