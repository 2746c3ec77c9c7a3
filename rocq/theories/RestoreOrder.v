(** Proofs about the order and the hash of evaluations. *)
From Coq Require Import ZArith List Bool Lia Arith.
From Verif Require Import Base Datum CodecModel CodecSpec CmpModel CmpSpec CmpProofs ParamModel TreeModel RngModel TreeSpaceModel TreeConfModel TreeConfSpec TreeConfProofs RestoreModel RestoreSpec.
Import ListNotations.
Open Scope Z_scope.

(** ** Classes *)
Lemma classes_pull {A B} (P : A -> Prop) lt same (f : B -> A) : classes P lt same ->
  classes (fun b => P (f b)) (fun x y => lt (f x) (f y)) (fun x y => same (f x) (f y)).
Proof. intros [R1 R2 R3 R4 R5 R6 R7 R8]. split; eauto. Qed.
Lemma classes_weaken {A} (P Q : A -> Prop) lt same : (forall a, Q a -> P a) -> classes P lt same -> classes Q lt same.
Proof. intros W [R1 R2 R3 R4 R5 R6 R7 R8]. split; eauto. Qed.
Lemma classes_next {A} (P : A -> Prop) lt1 same1 lt2 same2 : classes P lt1 same1 -> classes P lt2 same2 ->
  classes P (next lt1 same1 lt2) (fun a b => same1 a b /\ same2 a b).
Proof.
  intros [A1 A2 A3 A4 A5 A6 A7 A8] [B1 B2 B3 B4 B5 B6 B7 B8]. split.
  - auto.
  - intros a b [X Y]. auto.
  - intros a b c [X Y] [X' Y']. eauto.
  - intros a b Pa Pb [X Y] [L|[_ L]]; [exact (A4 a b Pa Pb X L)|exact (B4 a b Pa Pb Y L)].
  - intros a b c Pa Pb Pc [L|[S L]] [L'|[S' L']].
    + left. now apply A5 with b.
    + left. now apply A7 with b.
    + left. now apply A6 with b.
    + right. split; [now apply A3 with b|now apply B5 with b].
  - intros a b c Pa Pb Pc [S T] [L|[S' L]]; [left; now apply A6 with b|right; split; [now apply A3 with b|now apply B6 with b]].
  - intros a b c Pa Pb Pc [L|[S' L]] [S T]; [left; now apply A7 with b|right; split; [now apply A3 with b|now apply B7 with b]].
  - intros a b Pa Pb. destruct (A8 a b Pa Pb) as [L|[S|L]]; [left; now left| |right; right; now left].
    destruct (B8 a b Pa Pb) as [L|[T|L]]; [left; right; auto|right; left; auto|right; right; right; auto].
Qed.
Lemma binding_classes : classes wf_binding binding_lt same_binding.
Proof.
  assert (PR : forall a b, wf_binding a -> wf_binding b -> (binding_lt a b <-> binding_cmp a b < 0) /\ (same_binding a b <-> binding_cmp a b = 0) /\ (binding_lt b a <-> binding_cmp a b > 0)).
  { intros a b Wa Wb. destruct (binding_cmp_presents a b Wa Wb) as [[P1 P2] P3]. tauto. }
  assert (SY : forall a b, same_binding a b -> same_binding b a) by (intros a b [X Y]; split; congruence).
  assert (TR : forall a b c, same_binding a b -> same_binding b c -> same_binding a c) by (intros a b c [X Y] [X' Y']; split; congruence).
  destruct binding_cmp_total as (_ & _ & T3).
  assert (LT : forall a b c, wf_binding a -> wf_binding b -> wf_binding c -> binding_lt a b -> binding_lt b c -> binding_lt a c).
  { intros a b c Wa Wb Wc H1 H2. apply (PR a c); auto. apply T3 with b; auto; now apply PR. }
  assert (TT : forall a b, wf_binding a -> wf_binding b -> binding_lt a b \/ same_binding a b \/ binding_lt b a).
  { intros a b Wa Wb. destruct (PR a b Wa Wb) as (P1 & P2 & P3). rewrite P1, P2, P3. lia. }
  assert (IR : forall a b, wf_binding a -> wf_binding b -> same_binding a b -> ~ binding_lt a b).
  { intros a b Wa Wb S L. apply (PR a b Wa Wb) in S. apply (PR a b Wa Wb) in L. lia. }
  split; auto.
  - intro a. split; reflexivity.
  - intros a b c Wa Wb Wc S L. destruct (TT a c Wa Wc) as [H|[H|H]]; [exact H| |].
    + exfalso. apply (IR b c Wb Wc); [|exact L]. apply TR with a; auto.
    + exfalso. apply (IR b a Wb Wa (SY _ _ S)). now apply LT with c.
  - intros a b c Wa Wb Wc L S. destruct (TT a c Wa Wc) as [H|[H|H]]; [exact H| |].
    + exfalso. apply (IR a b Wa Wb); [|exact L]. apply TR with c; auto.
    + exfalso. apply (IR c b Wc Wb (SY _ _ S)). now apply LT with a.
Qed.
Lemma bobj_classes : classes wf_bobj bobj_lt bobj_same.
Proof. apply (classes_pull _ _ _ as_binding binding_classes). Qed.
Lemma pair_classes : classes (fun p => wf_bobj (fst p) /\ wf_bobj (snd p)) pair_lt pair_same.
Proof.
  apply (classes_next (fun p => wf_bobj (fst p) /\ wf_bobj (snd p)) (fun x y => bobj_lt (fst x) (fst y)) (fun x y => bobj_same (fst x) (fst y))
           (fun x y => bobj_lt (snd x) (snd y)) (fun x y => bobj_same (snd x) (snd y))).
  - eapply classes_weaken; [|apply (classes_pull _ _ _ fst bobj_classes)]. cbv beta. tauto.
  - eapply classes_weaken; [|apply (classes_pull _ _ _ snd bobj_classes)]. cbv beta. tauto.
Qed.
Lemma tconf_classes : classes (fun _ => True) tconf_lt tconf_same.
Proof.
  unfold tconf_lt, tconf_same. split; try tauto.
  - intros a b [X Y]; split; congruence.
  - intros a b c [X Y] [X' Y']; split; congruence.
  - intros a b _ _ S L. apply key_same in S. rewrite S in L. exact (lex_irrefl _ L).
  - intros a b c _ _ _. apply lex_trans.
  - intros a b c _ _ _ S. apply key_same in S. now rewrite S.
  - intros a b c _ _ _ L S. apply key_same in S. now rewrite <- S.
  - intros a b _ _. rewrite <- key_same.
    destruct (conf_ordered (mkConf 0 (tc_space a) (tc_pos a) None) (mkConf 1 (tc_space b) (tc_pos b) None)) as (c & _ & O1).
    { intro H. discriminate. }
    destruct O1 as [[_ H]|[[_ H]|[_ H]]]; auto.
Qed.
Lemma number_classes {A} (f : A -> Z) : classes (fun _ => True) (fun a b => f a < f b) (fun a b => f a = f b).
Proof. split; intros; lia. Qed.
Lemma eval_classes {E} (P : E -> Prop) lt same : classes P lt same -> classes (wf_eval P) (eval_lt lt) (eval_same same).
Proof.
  intro C. apply (classes_next (wf_eval P) (fun x y => binding_lt (eo_binding x) (eo_binding y)) (fun x y => same_binding (eo_binding x) (eo_binding y))
    (fun x y => eo_result x < eo_result y \/ (eo_result x = eo_result y /\ lt (eo_about x) (eo_about y)))
    (fun x y => eo_result x = eo_result y /\ same (eo_about x) (eo_about y))).
  - eapply classes_weaken; [|apply (classes_pull _ _ _ eo_binding binding_classes)]. intros e [W _]. exact W.
  - apply (classes_next (wf_eval P) (fun x y => eo_result x < eo_result y) (fun x y => eo_result x = eo_result y) (fun x y => lt (eo_about x) (eo_about y)) (fun x y => same (eo_about x) (eo_about y))).
    + eapply classes_weaken; [|apply (number_classes eo_result)]. cbv beta. auto.
    + eapply classes_weaken; [|apply (classes_pull _ _ _ eo_about C)]. intros e [_ W]. exact W.
Qed.

(** ** Comparisons *)
Lemma binding_ranks a b : wf_binding a -> wf_binding b ->
  (binding_cmp a b < 0 <-> binding_lt a b) /\ (binding_cmp a b > 0 <-> binding_lt b a) /\ (binding_cmp a b = 0 <-> same_binding a b).
Proof. intros Wa Wb. destruct (binding_cmp_presents a b Wa Wb) as [[P1 P2] P3]. auto. Qed.
Lemma bobj_ranks : ranks bobjs bobj_cmp bobj_lt bobj_same.
Proof.
  intros a b (Wa & Wb & I). unfold bobj_cmp. destruct (Z.eqb_spec (bo_id a) (bo_id b)) as [E|_].
  - exists 0. split; [reflexivity|]. rewrite <- (I E). destruct bobj_classes as [R _ _ IR _ _ _ _].
    pose proof (IR a a Wa Wa (R a)). pose proof (R a). split; [|split]; split; intro; try lia; try tauto; auto.
  - eexists. split; [reflexivity|]. apply binding_ranks; auto.
Qed.
Lemma pair_ranks : ranks pairs pair_cmp pair_lt pair_same.
Proof.
  intros a b [D1 D2]. unfold pair_cmp. destruct (bobj_ranks _ _ D1) as (c & -> & L & G & S). cbn [bind].
  destruct (bobj_ranks _ _ D2) as (d & E & L' & G' & S').
  assert (SY : bobj_same (fst a) (fst b) <-> bobj_same (fst b) (fst a)) by (split; apply bobj_classes).
  destruct (Z.eqb_spec c 0) as [Z0|N]; cbn [negb].
  - exists d. split; [exact E|]. unfold pair_lt, pair_same. rewrite L', G', S'. apply S in Z0 as X.
    assert (~ bobj_lt (fst a) (fst b)) by (rewrite <- L; lia). assert (~ bobj_lt (fst b) (fst a)) by (rewrite <- G; lia). tauto.
  - exists c. split; [reflexivity|]. unfold pair_lt, pair_same. rewrite L, G. assert (~ bobj_same (fst a) (fst b)) by (rewrite <- S; lia). tauto.
Qed.
Lemma tconf_ranks : ranks consistent conf_cmp tconf_lt tconf_same.
Proof.
  intros a b C. destruct (conf_order a b C) as (c & E & T & L & G & S). exists c. split; [exact E|]. unfold tconf_lt, tconf_same.
  rewrite <- L, <- G, <- S. split; [|split]; split; intro; lia.
Qed.
Lemma eval_ranks {E} (D : E -> E -> Prop) (P : E -> Prop) about lt same : ranks D about lt same -> classes P lt same -> (forall a b, D a b -> P a /\ P b) ->
  ranks (evals D) (eval_cmp about) (eval_lt lt) (eval_same same).
Proof.
  intros R C DP a b (Wa & Wb & I & DD). destruct (DP _ _ DD) as [Pa Pb]. unfold eval_cmp. destruct (Z.eqb_spec (eo_id a) (eo_id b)) as [Q|_].
  - exists 0. split; [reflexivity|]. rewrite <- (I Q) in *. destruct (eval_classes P lt same C) as [RF _ _ IR _ _ _ _].
    pose proof (IR a a (conj Wa Pa) (conj Wa Pa) (RF a)). pose proof (RF a). split; [|split]; split; intro; try lia; try tauto; auto.
  - cbv zeta. destruct (binding_ranks _ _ Wa Wb) as (L & G & S). destruct binding_classes as [_ SYB _ IRB _ _ _ _].
    assert (SY : same_binding (eo_binding a) (eo_binding b) <-> same_binding (eo_binding b) (eo_binding a)) by (split; apply SYB).
    set (c := binding_cmp (eo_binding a) (eo_binding b)) in *. clearbody c. unfold eval_lt, eval_same.
    destruct (Z.eqb_spec c 0) as [Z0|N]; cbn [negb].
    + pose proof Z0 as X. apply S in X. assert (~ binding_lt (eo_binding a) (eo_binding b)) by (rewrite <- L; lia). assert (~ binding_lt (eo_binding b) (eo_binding a)) by (rewrite <- G; lia).
      destruct (Z.ltb_spec (eo_result a) (eo_result b)); cbn [Z.eqb negb].
      { exists (-1). split; [reflexivity|]. intuition lia. }
      destruct (Z.ltb_spec (eo_result b) (eo_result a)); cbn [Z.eqb negb].
      { exists 1. split; [reflexivity|]. intuition lia. }
      destruct (R _ _ DD) as (d & -> & L' & G' & S'). exists d. split; [reflexivity|]. rewrite L', G', S'. intuition lia.
    + exists c. split; [reflexivity|]. rewrite L, G. assert (~ same_binding (eo_binding a) (eo_binding b)) by (rewrite <- S; lia). tauto.
Qed.

(** ** Hash *)
Lemma binding_hash_same jen a b : same_binding a b -> binding_hash jen a = binding_hash jen b.
Proof.
  intros [C V]. unfold binding_hash. rewrite C.
  assert (L : lenZ (b_values a) = lenZ (b_values b)) by (unfold lenZ; rewrite <- (map_length d_val (b_values a)), V, map_length; reflexivity).
  rewrite L. generalize (hash_combine (jen (le_bytes 8 (b_context b))) (jen (le_bytes 8 (lenZ (b_values b))))). clear L C.
  revert V. generalize (b_values b). induction (b_values a) as [|x l IH]; intros [|y l'] V z; try discriminate; [reflexivity|].
  cbn in V. injection V as V1 V2. cbn. rewrite (IH l' V2). f_equal. f_equal. unfold hash_datum. now rewrite V1.
Qed.
Lemma eval_hash_same {E} jen (same : E -> E -> Prop) about a b : (forall x y, same x y -> about x = about y) ->
  eval_same same a b -> eval_hash jen about a = eval_hash jen about b.
Proof. intros H (S & R & T). unfold eval_hash. cbv zeta. now rewrite (binding_hash_same jen _ _ S), R, (H _ _ T). Qed.
Lemma tconf_hash_same jen a b : tconf_same a b -> conf_hash jen a = conf_hash jen b.
Proof. intros [A B]. unfold conf_hash. now rewrite A, B. Qed.
Lemma hash_values_fold jen l : forall h, hash_values jen h l = fold_left hash_combine (map (hash_datum jen) l) h.
Proof. induction l as [|d l IH]; intro h; [reflexivity|]. cbn [hash_values map fold_left]. apply IH. Qed.
Lemma binding_parts jen b rest : fold_left hash_combine rest (binding_hash jen b) = parts_hash jen b rest.
Proof. unfold binding_hash, parts_hash. cbv zeta. cbn [fold_left]. rewrite fold_left_app, hash_values_fold. reflexivity. Qed.
Lemma hashes_cover jen :
  (forall b, bobj_hash jen b = parts_hash jen (as_binding b) []) /\
  (forall E about (e : eobj E), eval_hash jen about e = parts_hash jen (eo_binding e) (about (eo_about e) ++ [jen (le_bytes 4 (wrap 32 (eo_result e)))])) /\
  (forall b, conf_hashes jen b = [bobj_hash jen b]) /\ (forall a b, pair_hashes jen (a, b) = [bobj_hash jen a; bobj_hash jen b]) /\
  (forall c, tree_hashes jen c = [conf_hash jen c]).
Proof.
  split; [intro b; apply (binding_parts jen _ [])|]. split; [|repeat split].
  intros E about e. rewrite <- binding_parts, fold_left_app. reflexivity.
Qed.
Lemma hashes_agree jen :
  (forall a b, bobj_same a b -> bobj_hash jen a = bobj_hash jen b) /\
  (forall a b, eval_same bobj_same a b -> eval_hash jen (conf_hashes jen) a = eval_hash jen (conf_hashes jen) b) /\
  (forall a b, eval_same pair_same a b -> eval_hash jen (pair_hashes jen) a = eval_hash jen (pair_hashes jen) b) /\
  (forall a b, eval_same tconf_same a b -> eval_hash jen (tree_hashes jen) a = eval_hash jen (tree_hashes jen) b).
Proof.
  assert (B : forall a b, bobj_same a b -> bobj_hash jen a = bobj_hash jen b) by (intros; now apply binding_hash_same).
  split; [exact B|]. split; [|split]; intros a b; apply eval_hash_same.
  - intros x y S. unfold conf_hashes. now rewrite (B x y S).
  - intros x y [S T]. unfold pair_hashes. now rewrite (B _ _ S), (B _ _ T).
  - intros x y S. unfold tree_hashes. now rewrite (tconf_hash_same jen x y S).
Qed.
Lemma bindings_order : ranks bobjs bobj_cmp bobj_lt bobj_same /\ classes wf_bobj bobj_lt bobj_same.
Proof. split; [exact bobj_ranks|exact bobj_classes]. Qed.
Lemma evaluation_order : ranks (evals bobjs) (eval_cmp bobj_cmp) (eval_lt bobj_lt) (eval_same bobj_same) /\
  classes (wf_eval wf_bobj) (eval_lt bobj_lt) (eval_same bobj_same).
Proof.
  split; [|apply eval_classes, bobj_classes]. apply (eval_ranks _ _ _ _ _ bobj_ranks bobj_classes). intros a b (A & B & _). auto.
Qed.
Lemma features_evaluation_order : ranks (evals pairs) (eval_cmp pair_cmp) (eval_lt pair_lt) (eval_same pair_same) /\
  classes (wf_eval (fun p => wf_bobj (fst p) /\ wf_bobj (snd p))) (eval_lt pair_lt) (eval_same pair_same).
Proof.
  split; [|apply eval_classes, pair_classes]. apply (eval_ranks _ _ _ _ _ pair_ranks pair_classes). intros a b ((A & B & _) & (C & D & _)). auto.
Qed.
Lemma tree_evaluation_order : ranks (evals consistent) (eval_cmp conf_cmp) (eval_lt tconf_lt) (eval_same tconf_same) /\
  classes (wf_eval (fun _ => True)) (eval_lt tconf_lt) (eval_same tconf_same).
Proof. split; [|apply eval_classes, tconf_classes]. apply (eval_ranks _ _ _ _ _ tconf_ranks tconf_classes). auto. Qed.
