(** Proofs about options, object types and files. *)
From Coq Require Import ZArith List Bool Lia.
From Verif Require Import Base Datum CodecModel CodecSpec CodecProofs ParamModel FrameModel FrameSpec FrameProofs
  StreamModel FileModel FileSpec.
Import ListNotations.
Open Scope Z_scope.

(** ** Options *)
Section Last.
Context {X : Type}.
Variable gives : X -> option Z.
Fixpoint lastv (l : list X) (v : Z) : Z :=
  match l with
  | [] => v
  | x :: l => lastv l (match gives x with Some w => w | None => v end)
  end.
Lemma lastv_none l v : Forall (fun y => gives y = None) l -> lastv l v = v.
Proof. induction 1 as [|x l E _ IH]; cbn [lastv]; auto. now rewrite E. Qed.
Lemma lastv_app l1 l2 v : lastv (l1 ++ l2) v = lastv l2 (lastv l1 v).
Proof. revert v. induction l1 as [|x l1 IH]; intros v; cbn [lastv app]; auto. Qed.
Lemma lastv_cases l v :
  (exists pre x post, l = pre ++ x :: post /\ gives x = Some (lastv l v) /\ Forall (fun y => gives y = None) post) \/
  (lastv l v = v /\ Forall (fun y => gives y = None) l).
Proof.
  revert v. induction l as [|x l IH]; intros v; cbn [lastv].
  - right. split; auto.
  - destruct (gives x) as [w|] eqn:E.
    + destruct (IH w) as [(pre & y & post & -> & G & F)|[L F]].
      * left. exists (x :: pre), y, post. repeat split; auto.
      * left. exists [], x, l. rewrite L. repeat split; auto.
    + destruct (IH v) as [(pre & y & post & -> & G & F)|[L F]].
      * left. exists (x :: pre), y, post. repeat split; auto.
      * right. split; auto.
Qed.
Lemma latest_lastv l v : latest gives l v <-> v = lastv l 0.
Proof.
  split.
  - intros [(pre & x & post & -> & G & F)|[-> F]].
    + rewrite lastv_app. cbn [lastv]. rewrite G. now rewrite lastv_none.
    + now rewrite lastv_none.
  - intros ->. unfold latest. destruct (lastv_cases l 0) as [H|[E F]]; [left | right]; auto.
Qed.
End Last.

Lemma s_options_gen op l : forall o,
  (Forall (s_good op) l -> serialize_options op l o =
     Ok (mkSopts (lastv s_state l (so_state o)) (lastv s_callback l (so_callback o)))) /\
  (Exists (fun x => ~ s_good op x) l -> serialize_options op l o = Err ERR_INVALID_VALUE) /\
  (Forall (s_good op) l \/ Exists (fun x => ~ s_good op x) l).
Proof.
  induction l as [|x l IH]; intros o; cbn [serialize_options lastv].
  - repeat split; auto.
    + intros _. now destruct o.
    + intros H. inversion H.
  - assert (G : (s_good op x /\ exists o1, (match x with
              | SNonBlocking p =>
                  do _ <- refute (negb (is_fd op)) ERR_INVALID_VALUE;
                  do _ <- refute (p =? 0) ERR_INVALID_VALUE;
                  Ok (mkSopts p (so_callback o))
              | SCallback c =>
                  do _ <- refute (c =? 0) ERR_INVALID_VALUE;
                  Ok (mkSopts (so_state o) c)
              | SUnknown _ => Err ERR_INVALID_VALUE
              end) = Ok o1 /\ so_state o1 = match s_state x with Some w => w | None => so_state o end /\
               so_callback o1 = match s_callback x with Some w => w | None => so_callback o end) \/
           (~ s_good op x /\ (match x with
              | SNonBlocking p =>
                  do _ <- refute (negb (is_fd op)) ERR_INVALID_VALUE;
                  do _ <- refute (p =? 0) ERR_INVALID_VALUE;
                  Ok (mkSopts p (so_callback o))
              | SCallback c =>
                  do _ <- refute (c =? 0) ERR_INVALID_VALUE;
                  Ok (mkSopts (so_state o) c)
              | SUnknown _ => Err ERR_INVALID_VALUE
              end) = Err ERR_INVALID_VALUE)).
    { destruct x as [p|c|u]; cbn [s_good s_state s_callback].
      - destruct op; cbn [is_fd negb refute bind].
        1-3: right; split; [intros [? _]; discriminate | reflexivity].
        destruct (Z.eqb_spec p 0) as [->|N]; cbn [refute bind].
        + right. split; [intros [_ ?]; auto | reflexivity].
        + left. split; [auto|]. eexists. split; [reflexivity|]. auto.
      - destruct (Z.eqb_spec c 0) as [->|N]; cbn [refute bind].
        + right. split; [auto | reflexivity].
        + left. split; [auto|]. eexists. split; [reflexivity|]. auto.
      - right. split; auto. }
    destruct G as [(G & o1 & E & Es & Ec)|(G & E)]; rewrite E; cbn [bind].
    + destruct (IH o1) as (H1 & H2 & H3). rewrite Es, Ec in H1. repeat split.
      * intros F. inversion F; subst. auto.
      * intros F. inversion F; subst; [contradiction|auto].
      * destruct H3; [left|right]; auto.
    + repeat split; auto.
      intros F. inversion F; subst. contradiction.
Qed.

Theorem s_options_ok op l o : serialize_options op l no_sopts = Ok o <-> s_taken op l o.
Proof.
  destruct (s_options_gen op l no_sopts) as (H1 & H2 & H3). unfold s_taken.
  rewrite !latest_lastv. cbn [no_sopts so_state so_callback] in H1. split.
  - intros E. destruct H3 as [H|H].
    + rewrite (H1 H) in E. injection E as <-. auto.
    + rewrite (H2 H) in E. discriminate.
  - intros (F & Es & Ec). rewrite (H1 F). destruct o as [o1 o2]. cbn [so_state so_callback] in *. now subst.
Qed.
Theorem s_options_err op l c : serialize_options op l no_sopts = Err c <-> s_refused op l /\ c = ERR_INVALID_VALUE.
Proof.
  destruct (s_options_gen op l no_sopts) as (H1 & H2 & H3). split.
  - intros E. destruct H3 as [H|H].
    + rewrite (H1 H) in E. discriminate.
    + rewrite (H2 H) in E. injection E as <-. split; auto.
  - intros [F ->]. auto.
Qed.
Theorem s_options_total op l : (exists o, s_taken op l o) \/ s_refused op l.
Proof.
  destruct (s_options_gen op l no_sopts) as (H1 & H2 & [H|H]).
  - left. eexists. apply s_options_ok. apply (H1 H).
  - right. exact H.
Qed.

(** One option of a call that restores. *)
Definition d_step (op : operation) (x : dopt) (o : dopts) : res dopts :=
  match x with
  | DMap None => Err ERR_INVALID_OBJECT
  | DMap (Some m) => Ok (mkDopts m (do_vector o) (do_data o) (do_state o) (do_callback o))
  | DVector v =>
      do _ <- refute (v =? 0) ERR_INVALID_VALUE;
      Ok (mkDopts (do_map o) v (do_data o) (do_state o) (do_callback o))
  | DData d => Ok (mkDopts (do_map o) (do_vector o) d (do_state o) (do_callback o))
  | DNonBlocking p =>
      do _ <- refute (negb (is_fd op)) ERR_INVALID_VALUE;
      do _ <- refute (p =? 0) ERR_INVALID_VALUE;
      Ok (mkDopts (do_map o) (do_vector o) (do_data o) p (do_callback o))
  | DCallback c =>
      do _ <- refute (c =? 0) ERR_INVALID_VALUE;
      Ok (mkDopts (do_map o) (do_vector o) (do_data o) (do_state o) c)
  | DUnknown _ => Err ERR_INVALID_VALUE
  end.
Definition d_next (x : dopt) (o : dopts) : dopts :=
  let or f v := match f x with Some w => w | None => v end in
  mkDopts (or d_map (do_map o)) (or d_vector (do_vector o)) (or d_data (do_data o)) (or d_state (do_state o))
    (or d_callback (do_callback o)).
Lemma d_options_cons op x l o :
  deserialize_options op (x :: l) o = do o <- d_step op x o; deserialize_options op l o.
Proof. reflexivity. Qed.
Lemma d_step_cases op x o :
  (d_good op x /\ d_step op x o = Ok (d_next x o)) \/ (~ d_good op x /\ d_step op x o = Err (d_code x)).
Proof.
  destruct x as [[m|]|v|d|p|c|u]; cbn [d_good d_step d_code].
  - left. split; [discriminate | reflexivity].
  - right. split; [auto | reflexivity].
  - destruct (Z.eqb_spec v 0) as [->|N]; cbn [refute bind]; [right; split; auto | left; split; auto].
  - left. auto.
  - destruct op; cbn [is_fd negb refute bind].
    1-3: right; split; [intros [? _]; discriminate | reflexivity].
    destruct (Z.eqb_spec p 0) as [->|N]; cbn [refute bind].
    + right. split; [intros [_ ?]; auto | reflexivity].
    + left. auto.
  - destruct (Z.eqb_spec c 0) as [->|N]; cbn [refute bind]; [right; split; auto | left; split; auto].
  - right. auto.
Qed.
Lemma d_options_gen op l : forall o,
  (Forall (d_good op) l /\ deserialize_options op l o =
     Ok (mkDopts (lastv d_map l (do_map o)) (lastv d_vector l (do_vector o)) (lastv d_data l (do_data o))
           (lastv d_state l (do_state o)) (lastv d_callback l (do_callback o)))) \/
  (exists x, first_bad (d_good op) l x /\ deserialize_options op l o = Err (d_code x)).
Proof.
  induction l as [|x l IH]; intros o; cbn [lastv].
  - left. split; [auto|]. now destruct o.
  - rewrite d_options_cons. destruct (d_step_cases op x o) as [[G E]|[G E]]; rewrite E; cbn [bind].
    + destruct (IH (d_next x o)) as [[F H]|(y & (pre & post & -> & F & B) & H)].
      * left. split; [now constructor|]. rewrite H. reflexivity.
      * right. exists y. split; [|exact H]. exists (x :: pre), post. repeat split; auto.
    + right. exists x. split; [|reflexivity]. exists [], l. repeat split; auto.
Qed.
Lemma first_bad_not {X} (good : X -> Prop) l x : first_bad good l x -> ~ Forall good l.
Proof. intros (pre & post & -> & _ & B) F. apply Forall_app in F as [_ F]. inversion F; contradiction. Qed.
Lemma first_bad_unique {X} (good : X -> Prop) l x y : first_bad good l x -> first_bad good l y -> x = y.
Proof.
  intros (p1 & q1 & E1 & F1 & B1) (p2 & q2 & E2 & F2 & B2). subst l. revert p2 E2 F2.
  induction p1 as [|a p1 IH]; intros [|b p2] E2 F2; cbn [app] in E2; injection E2; intros.
  - auto.
  - subst. inversion F2; contradiction.
  - subst. inversion F1; contradiction.
  - subst. inversion F1; inversion F2; subst. eauto.
Qed.

Theorem d_options_ok op l o : deserialize_options op l no_dopts = Ok o <-> d_taken op l o.
Proof.
  unfold d_taken. rewrite !latest_lastv.
  destruct (d_options_gen op l no_dopts) as [[F E]|(x & B & E)]; rewrite E;
    cbn [no_dopts do_map do_vector do_data do_state do_callback].
  - split.
    + intros H. injection H as <-. repeat split; auto.
    + intros (_ & E1 & E2 & E3 & E4 & E5). destruct o as [v1 v2 v3 v4 v5]. cbn [do_map do_vector do_data do_state do_callback] in *.
      now subst.
  - split; [discriminate|]. intros (F & _). now apply first_bad_not in B.
Qed.
Theorem d_options_err op l c : deserialize_options op l no_dopts = Err c <-> d_refused op l c.
Proof.
  unfold d_refused. destruct (d_options_gen op l no_dopts) as [[F E]|(x & B & E)]; rewrite E.
  - split; [discriminate|]. intros (x & B & _). now apply first_bad_not in B.
  - split.
    + intros H. injection H as <-. eauto.
    + intros (y & B2 & ->). now rewrite (first_bad_unique _ _ _ _ B B2).
Qed.
Theorem d_options_total op l : (exists o, d_taken op l o) \/ (exists c, d_refused op l c).
Proof.
  destruct (d_options_gen op l no_dopts) as [[F E]|(x & B & E)].
  - left. eexists. apply d_options_ok, E.
  - right. eexists. apply d_options_err, E.
Qed.

(** ** Object types *)
Lemma restorable_in t : existsb (Z.eqb t) restorable_types = true <-> restorable t.
Proof.
  unfold restorable. rewrite existsb_exists. split.
  - intros (x & I & E). apply Z.eqb_eq in E as ->. cbn in I. lia.
  - intros [B N]. exists t. split; [|apply Z.eqb_refl].
    cbn. lia.
Qed.

Section Decode.
Context {A : Type}.
Variable decode : dopts -> Z -> rstate -> res (A * rstate).

Theorem decode_any_type o t bt tl n : 0 <= t < 2 ^ 32 -> leb128 t bt -> lenZ bt <= n <= lenZ (bt ++ tl) -> n < 2 ^ 64 ->
  (restorable t -> decode_any decode o (mkR (bt ++ tl) n) = decode o t (mkR (bt ++ tl) n)) /\
  (~ restorable t -> decode_any decode o (mkR (bt ++ tl) n) = Err ERR_UNSUPPORTED_OPERATION).
Proof.
  intros B L Hn Hn'. unfold decode_any, peek_enum, deser_enum.
  destruct (deser_uint_decodes 32 t bt) as [D _]; auto using okw32.
  rewrite (D tl n Hn Hn'). cbn [bind].
  pose proof (restorable_in t) as R. destruct (existsb (Z.eqb t) restorable_types).
  - split; [auto|]. intros N. exfalso. apply N, R. reflexivity.
  - split; [|auto]. intros H. apply R in H. discriminate.
Qed.
Lemma decode_any_decodes o t bt rest a : restorable t -> leb128 t bt ->
  decodes (decode o t) a (bt ++ rest) -> decodes (decode_any decode o) a (bt ++ rest).
Proof.
  intros R L D.
  assert (B : 0 <= t < 2 ^ 32) by (destruct R; lia).
  destruct D as [D1 D2]. split.
  - intros tl n Hn Hn'. rewrite <- app_assoc in *.
    destruct (decode_any_type o t bt (rest ++ tl) n B L) as [H _]; auto.
    + rewrite !lenZ_app in *. pose proof (lenZ_nonneg rest). pose proof (lenZ_nonneg tl). lia.
    + rewrite (H R). rewrite app_assoc. rewrite D1.
      * reflexivity.
      * rewrite !lenZ_app in *. lia.
      * exact Hn'.
  - intros p q tl E Q Hp. specialize (D2 p q tl E Q Hp).
    unfold decode_any, peek_enum, deser_enum.
    destruct (deser_uint_decodes 32 t bt) as [U1 U2]; auto using okw32.
    destruct (Nat.leb_spec (length bt) (length p)) as [Le|Lt].
    + (* the type is complete *)
      assert (P : exists r, p = bt ++ r).
      { clear - E Le. revert p q E Le. induction bt as [|b bt IH]; intros p q E Le.
        - exists p. reflexivity.
        - destruct p as [|c p]; [cbn in Le; lia|]. cbn [app] in E. injection E as -> E.
          destruct (IH p q E) as [r ->]; [cbn in Le; lia|]. exists r. reflexivity. }
      destruct P as [r ->]. rewrite <- app_assoc. rewrite U1.
      * cbn [bind]. rewrite (proj2 (restorable_in t) R). rewrite app_assoc. exact D2.
      * rewrite !lenZ_app. pose proof (lenZ_nonneg r). pose proof (lenZ_nonneg tl). lia.
      * exact Hp.
    + assert (P : exists r, bt = p ++ r /\ r <> []).
      { clear - E Lt. revert p E Lt. induction bt as [|b bt IH]; intros p E Lt; [cbn in Lt; lia|].
        destruct p as [|c p].
        - exists (b :: bt). split; [reflexivity | discriminate].
        - cbn [app] in E. injection E as -> E. destruct (IH p E) as (r & -> & N); [cbn in Lt; lia|].
          exists r. split; [reflexivity | exact N]. }
      destruct P as (r & Er & N). rewrite (U2 p r tl Er N Hp). reflexivity.
Qed.
End Decode.

(** ** Files *)
Lemma same_only p w w1 : same_world w w1 -> only_file p w w1.
Proof. intros (F & ? & ?). split; auto. Qed.
Lemma same_refl w : same_world w w.
Proof. repeat split; auto. Qed.
Lemma set_file_other p b w q : q <> p -> wd_files (set_file p b w) q = wd_files w q.
Proof. intros N. cbn. now rewrite (proj2 (Z.eqb_neq q p) N). Qed.
Lemma set_file_same p b w : wd_files (set_file p b w) p = Some b.
Proof. cbn. now rewrite Z.eqb_refl. Qed.
Lemma lenZ_zeroes n : 0 <= n -> lenZ (zeroes n) = n.
Proof. intros H. unfold lenZ, zeroes. rewrite repeat_length. lia. Qed.

Lemma lenZ_framed bs : lenZ (framed bs) = 13 + lenZ bs.
Proof. rewrite framed_header, lenZ_app, header_len. reflexivity. Qed.

Section Save.
Variable le : bool.
Variable body : Z -> wstate -> res wstate.
Variable body_size : Z -> res Z.
Notation save := (save_file le body body_size).

Ltac closed := split;
  [ let q := fresh in let N := fresh in intros q N; cbn; rewrite ?(proj2 (Z.eqb_neq _ _) N); reflexivity
  | split; cbn; lia ].

(** Whatever happens, only the file named can change, and nothing stays open. *)
Theorem save_only fmt p l sys w c w1 : save fmt (Some p) l sys w = Done (c, w1) -> only_file p w w1.
Proof.
  unfold save_file. destruct (serialize_options OpFile l no_sopts) as [o|c0|u]; [| |discriminate].
  2:{ intros H. injection H as <- <-. apply same_only, same_refl. }
  destruct (sy_open sys); cbn [negb].
  2:{ intros H. injection H as <- <-. apply same_only, same_refl. }
  destruct (size_with_opts body_size fmt o) as [n|c0|u]; [| |discriminate].
  2:{ intros H. injection H as <- <-. closed. }
  destruct (mmap sys n); try (intros H; injection H as <- <-; closed).
  destruct (sy_truncate sys); cbn [negb].
  2:{ intros H. injection H as <- <-. closed. }
  destruct (memory_with_opts le body fmt o (zeroes n) n) as [bytes|c0|u]; [| |discriminate];
    intros H; injection H as <- <-; closed.
Qed.
Theorem save_refused fmt path l sys w : path = None \/ s_refused OpFile l ->
  save fmt path l sys w = Done (ERR_INVALID_VALUE, w).
Proof.
  unfold save_file. destruct path as [p|]; [|reflexivity].
  intros [E|R]; [discriminate|]. rewrite (proj2 (s_options_err OpFile l ERR_INVALID_VALUE) (conj R eq_refl)). reflexivity.
Qed.
Theorem save_no_path fmt path l sys w : sy_open sys = false -> exists c, save fmt path l sys w = Done (c, w) /\ c < 0.
Proof.
  intros N. unfold save_file. destruct path as [p|]; [|eexists; split; [reflexivity | reflexivity]].
  destruct (s_options_total OpFile l) as [[o T]|R].
  - rewrite (proj2 (s_options_ok _ _ _) T), N. cbn [negb]. eexists. split; [reflexivity | reflexivity].
  - rewrite (proj2 (s_options_err OpFile l ERR_INVALID_VALUE) (conj R eq_refl)). eexists. split; [reflexivity | reflexivity].
Qed.

(** The encoder or the format is at fault: the file is there, without the object. *)
Theorem save_encoder fmt p l o sys w : s_taken OpFile l o -> sy_open sys = true ->
  (fmt <> FORMAT_BINARY -> exists w1, save fmt (Some p) l sys w = Done (ERR_INVALID_VALUE, w1) /\
     only_file p w w1 /\ wd_files w1 p = Some []) /\
  (forall c, fmt = FORMAT_BINARY -> body_size (so_callback o) = Err c ->
     exists w1, save fmt (Some p) l sys w = Done (c, w1) /\ only_file p w w1 /\ wd_files w1 p = Some []) /\
  (forall c b, fmt = FORMAT_BINARY -> body_size (so_callback o) = Ok b -> 0 <= b -> writable sys ->
     serialize_memory le (body (so_callback o)) (repeat 0 (Z.to_nat (13 + b))) (13 + b) = Err c ->
     exists w1, save fmt (Some p) l sys w = Done (c, w1) /\ only_file p w w1 /\ wd_files w1 p = Some (sy_left sys)).
Proof.
  intros T Op. apply s_options_ok in T.
  assert (Go : forall (r : run (Z * world)) c w1, save fmt (Some p) l sys w = r -> r = Done (c, w1) ->
    only_file p w w1) by (intros r c w1 E ->; eapply save_only; eassumption).
  split; [|split].
  - intros N. eexists. assert (E : save fmt (Some p) l sys w = Done (ERR_INVALID_VALUE, close (add_fd 1 (set_file p [] w)))).
    { unfold save_file. rewrite T, Op. cbn [negb]. unfold size_with_opts, format_size.
      rewrite (proj2 (Z.eqb_neq _ _) N). reflexivity. }
    split; [exact E|]. split; [eapply save_only, E | apply set_file_same].
  - intros c -> S. eexists. assert (E : save FORMAT_BINARY (Some p) l sys w = Done (c, close (add_fd 1 (set_file p [] w)))).
    { unfold save_file. rewrite T, Op. cbn [negb]. unfold size_with_opts, format_size.
      rewrite Z.eqb_refl, S. reflexivity. }
    split; [exact E|]. split; [eapply save_only, E | apply set_file_same].
  - intros c b -> S Hb (_ & Hm & Ht & Hs) F. eexists.
    assert (E : save FORMAT_BINARY (Some p) l sys w =
      Done (c, close (munmap (set_file p (sy_left sys) (add_map 1 (add_fd 1 (set_file p [] w))))))).
    { unfold save_file. rewrite T, Op. cbn [negb]. unfold size_with_opts, format_size.
      rewrite Z.eqb_refl, S. cbn [bind]. change (serialize_size b) with (13 + b).
      unfold mmap. rewrite (proj2 (Z.eqb_neq (13 + b) 0)) by lia. rewrite Hm, Ht. cbn [negb].
      unfold memory_with_opts. rewrite Z.eqb_refl. unfold zeroes. rewrite F. reflexivity. }
    split; [exact E|]. split; [eapply save_only, E | apply set_file_same].
Qed.

(** An object that has an encoding. *)
Theorem save_ok p l o sys w bs : s_taken OpFile l o ->
  encodes (body (so_callback o)) bs -> body_size (so_callback o) = Ok (lenZ bs) -> 13 + lenZ bs < 2 ^ 64 ->
  exists c w1, save FORMAT_BINARY (Some p) l sys w = Done (c, w1) /\ only_file p w w1 /\
    save_ends sys bs (wd_files w p) c (wd_files w1 p).
Proof.
  intros T E S B. pose proof T as T'. apply s_options_ok in T.
  pose proof (lenZ_nonneg bs) as Nb.
  assert (R : exists c w1, save FORMAT_BINARY (Some p) l sys w = Done (c, w1) /\ save_ends sys bs (wd_files w p) c (wd_files w1 p)).
  { unfold save_file. rewrite T. destruct (sy_open sys) eqn:Op; cbn [negb].
    2:{ do 2 eexists. split; [reflexivity|]. now constructor. }
    unfold size_with_opts, format_size. rewrite Z.eqb_refl, S. cbn [bind].
    change (serialize_size (lenZ bs)) with (13 + lenZ bs).
    unfold mmap. rewrite (proj2 (Z.eqb_neq (13 + lenZ bs) 0)) by lia.
    destruct (sy_map sys) eqn:Mp.
    2-4: do 2 eexists; split; [reflexivity|]; unfold close, add_fd; cbn [wd_files];
         change (fun p0 : Z => if p0 =? p then Some [] else wd_files w p0) with (wd_files (set_file p [] w));
         rewrite ?set_file_same; apply save_no_map; [exact Op | rewrite Mp; reflexivity].
    destruct (sy_truncate sys) eqn:Tr; cbn [negb].
    2:{ do 2 eexists. split; [reflexivity|]. cbn [close munmap add_map add_fd wd_files].
        rewrite set_file_same. now apply save_no_size. }
    unfold memory_with_opts. rewrite Z.eqb_refl.
    destruct (serialize_memory_ok le (body (so_callback o)) bs (zeroes (13 + lenZ bs)) (13 + lenZ bs)) as [Ok1 _];
      [exact E | symmetry; apply lenZ_zeroes; lia | lia |].
    rewrite Ok1 by lia.
    assert (Sk : framed bs ++ skipn (length (framed bs)) (zeroes (13 + lenZ bs)) = framed bs).
    { rewrite skipn_all2; [apply app_nil_r|]. unfold zeroes. rewrite repeat_length.
      assert (lenZ (framed bs) = 13 + lenZ bs) by (rewrite framed_header, lenZ_app, header_len; reflexivity).
      unfold lenZ in *. lia. }
    rewrite Sk. do 2 eexists. split; [reflexivity|]. cbn [close munmap add_map add_fd wd_files].
    unfold set_file at 1. cbn [wd_files]. rewrite Z.eqb_refl.
    destruct (sy_sync sys) eqn:Sy; [now apply save_done | now apply save_no_sync]. }
  destruct R as (c & w1 & R1 & R2). exists c, w1. split; [exact R1|]. split; [eapply save_only, R1 | exact R2].
Qed.
End Save.

Section Restore.
Context {A : Type}.
Variable le : bool.
Variable decode : dopts -> Z -> rstate -> res (A * rstate).
Notation restore := (restore_file le decode).

Theorem restore_unread fmt p l sys w c : unread sys (wd_files w p) c ->
  exists w1, restore fmt (Some p) l sys w = Done (c, None, w1) /\ same_world w w1.
Proof.
  intros U. unfold restore_file. inversion U as [Op|E|b Op E St|Op E St|b c0 Op E N St M]; subst.
  - rewrite Op. eexists. split; [reflexivity | apply same_refl].
  - rewrite E. destruct (sy_open sys); (eexists; split; [reflexivity | apply same_refl]).
  - rewrite Op, E, St. cbn [negb]. eexists. split; [reflexivity|]. repeat split; cbn; auto; lia.
  - rewrite Op, E, St. cbn [negb]. unfold mmap, lenZ. cbn [length Z.of_nat Z.eqb].
    eexists. split; [reflexivity|]. repeat split; cbn; auto; lia.
  - rewrite Op, E, St. cbn [negb]. unfold mmap.
    assert (lenZ b =? 0 = false) as -> by (apply Z.eqb_neq; unfold lenZ; destruct b; [congruence | cbn; lia]).
    destruct (sy_map sys); cbn in M; subst; try contradiction;
      (eexists; split; [reflexivity|]; repeat split; cbn; auto; lia).
Qed.
Lemma same_after w : same_world w (close (munmap (add_map 1 (add_fd 1 w)))).
Proof. repeat split; cbn; lia. Qed.
Lemma deserialize_any_file fmt mem n l : deserialize_any le decode fmt OpFile mem n l = deserialize_any le decode fmt OpMemory mem n l.
Proof.
  unfold deserialize_any. f_equal. generalize no_dopts.
  induction l as [|x l IH]; intros o; [reflexivity|]. rewrite !d_options_cons.
  assert (d_step OpFile x o = d_step OpMemory x o) as -> by (destruct x; reflexivity).
  destruct (d_step OpMemory x o); cbn [bind]; auto.
Qed.
Theorem restore_read fmt p l sys w bytes : readable sys -> wd_files w p = Some bytes -> bytes <> [] ->
  as_from_memory (restore_memory le decode fmt (Some bytes) (lenZ bytes) l) w (restore fmt (Some p) l sys w).
Proof.
  intros (Op & St & Mp) E N. unfold restore_file, restore_memory. rewrite Op, E, St. cbn [negb]. unfold mmap.
  assert (lenZ bytes =? 0 = false) as -> by (apply Z.eqb_neq; unfold lenZ; destruct bytes; [congruence | cbn; lia]).
  rewrite Mp, deserialize_any_file.
  destruct (deserialize_any le decode fmt OpMemory bytes (lenZ bytes) l); cbn [as_from_memory].
  - eexists. split; [reflexivity | apply same_after].
  - eexists. split; [reflexivity | apply same_after].
  - reflexivity.
Qed.
Theorem restore_no_path fmt l sys w : restore fmt None l sys w = Done (ERR_INVALID_VALUE, None, w).
Proof. reflexivity. Qed.
Theorem restore_same fmt path l sys w c a w1 : restore fmt path l sys w = Done (c, a, w1) -> same_world w w1.
Proof.
  unfold restore_file. destruct path as [p|]; [|intros H; injection H as <- <- <-; apply same_refl].
  destruct (if sy_open sys then wd_files w p else None) as [bytes|]; [|intros H; injection H as <- <- <-; apply same_refl].
  destruct (sy_stat sys); cbn [negb]; [|intros H; injection H as <- <- <-; repeat split; cbn; auto; lia].
  destruct (mmap sys (lenZ bytes)); try (intros H; injection H as <- <- <-; repeat split; cbn; auto; lia).
  destruct (deserialize_any le decode fmt OpFile bytes (lenZ bytes) l); intros H; try discriminate;
    injection H as <- <- <-; apply same_after.
Qed.

(** Reading from memory. *)
Theorem memory_ok l o t bt rest a tl n : d_taken OpMemory l o -> restorable t -> leb128 t bt ->
  decodes (decode o t) a (bt ++ rest) -> 13 + lenZ (bt ++ rest) <= n <= lenZ (framed (bt ++ rest) ++ tl) -> n < 2 ^ 64 ->
  restore_memory le decode FORMAT_BINARY (Some (framed (bt ++ rest) ++ tl)) n l = Ok a.
Proof.
  intros T R L D Hn Hn'. apply d_options_ok in T. unfold restore_memory, deserialize_any. rewrite T. cbn [bind].
  rewrite Z.eqb_refl.
  destruct (deserialize_memory_ok le (decode_any decode o) a (bt ++ rest)) as [H _]; [|lia|now apply H].
  now apply decode_any_decodes with (t := t).
Qed.
Theorem memory_cut l o t bt rest a p q tl : d_taken OpMemory l o -> restorable t -> leb128 t bt ->
  decodes (decode o t) a (bt ++ rest) -> 13 + lenZ (bt ++ rest) < 2 ^ 64 -> framed (bt ++ rest) = p ++ q -> q <> [] ->
  restore_memory le decode FORMAT_BINARY (Some (p ++ tl)) (lenZ p) l = Err ERR_NOT_ENOUGH_DATA.
Proof.
  intros T R L D B E N. apply d_options_ok in T. unfold restore_memory, deserialize_any. rewrite T. cbn [bind].
  rewrite Z.eqb_refl.
  destruct (deserialize_memory_ok le (decode_any decode o) a (bt ++ rest)) as [_ H]; [|lia|now apply (H p q)].
  now apply decode_any_decodes with (t := t).
Qed.
Theorem file_cut l o t bt rest a p q path sys w : d_taken OpMemory l o -> restorable t -> leb128 t bt ->
  decodes (decode o t) a (bt ++ rest) -> 13 + lenZ (bt ++ rest) < 2 ^ 64 -> framed (bt ++ rest) = p ++ q ->
  p <> [] -> q <> [] -> readable sys -> wd_files w path = Some p ->
  exists w1, restore FORMAT_BINARY (Some path) l sys w = Done (ERR_NOT_ENOUGH_DATA, None, w1) /\ same_world w w1.
Proof.
  intros T R L D B E Np Nq Rd F. pose proof (restore_read FORMAT_BINARY path l sys w p Rd F Np) as H.
  rewrite <- (app_nil_r p) in H at 1. rewrite (memory_cut l o t bt rest a p q [] T R L D B E Nq) in H. exact H.
Qed.
Theorem memory_refused fmt mem n l c : d_refused OpMemory l c ->
  restore_memory le decode fmt (Some mem) n l = Err c /\ restore_memory le decode fmt None n l = Err ERR_INVALID_VALUE.
Proof.
  intros R. apply d_options_err in R. unfold restore_memory, deserialize_any. rewrite R. auto.
Qed.
Theorem memory_format fmt mem n l o : d_taken OpMemory l o -> fmt <> FORMAT_BINARY ->
  restore_memory le decode fmt (Some mem) n l = Err ERR_INVALID_VALUE.
Proof.
  intros T N. apply d_options_ok in T. unfold restore_memory, deserialize_any. rewrite T. cbn [bind].
  now rewrite (proj2 (Z.eqb_neq _ _) N).
Qed.

(** What was saved is restored, as long as nobody changes that file. *)
Theorem round body body_size p sl so sys w bs t bt rest a dl do_ sys2 w1 w2 :
  s_taken OpFile sl so -> encodes (body (so_callback so)) bs -> body_size (so_callback so) = Ok (lenZ bs) ->
  13 + lenZ bs < 2 ^ 64 -> bs = bt ++ rest -> restorable t -> leb128 t bt -> d_taken OpMemory dl do_ ->
  decodes (decode do_ t) a bs ->
  save_file le body body_size FORMAT_BINARY (Some p) sl sys w = Done (CCS_RESULT_SUCCESS, w1) ->
  readable sys2 -> wd_files w2 p = wd_files w1 p ->
  exists w3, restore FORMAT_BINARY (Some p) dl sys2 w2 = Done (CCS_RESULT_SUCCESS, Some a, w3) /\ same_world w2 w3.
Proof.
  intros T E S B -> R L DT D Sv Rd Fw.
  destruct (save_ok le body body_size p sl so sys w _ T E S B) as (c & w1' & Sv' & _ & En).
  rewrite Sv in Sv'. injection Sv' as <- <-.
  assert (F : wd_files w1 p = Some (framed (bt ++ rest))).
  { inversion En as [| | | |]; subst; auto.
    exfalso. clear - H0. unfold map_code in H0. destruct (sy_map sys); auto; discriminate. }
  assert (F2 : wd_files w2 p = Some (framed (bt ++ rest))) by congruence.
  pose proof (restore_read FORMAT_BINARY p dl sys2 w2 _ Rd F2) as H.
  rewrite <- (app_nil_r (framed (bt ++ rest))) in H at 2.
  rewrite (memory_ok dl do_ t bt rest a [] (lenZ (framed (bt ++ rest)))) in H; auto.
  - apply H. unfold framed. discriminate.
  - rewrite app_nil_r, lenZ_framed. lia.
  - rewrite lenZ_framed. lia.
Qed.
End Restore.
