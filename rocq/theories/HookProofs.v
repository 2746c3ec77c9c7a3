(** Proofs about HookModel. *)
From Coq Require Import ZArith List Bool Lia.
From Verif Require Import Base Datum CodecModel CodecSpec CodecProofs HookModel HookSpec.
Import ListNotations.
Open Scope Z_scope.

Section P.
Variable app : list call -> call -> answer.

Definition chosen (o : hobj) (ocb oud : Z) : option (Z * Z) :=
  if h_ud o =? 0 then None else if negb (h_cb o =? 0) then Some (h_cb o, h_cbud o)
  else if negb (ocb =? 0) then Some (ocb, oud) else None.
Lemma served_chosen o ocb oud f u : served o ocb oud f u -> chosen o ocb oud = Some (f, u) /\ (h_ud o =? 0) = false.
Proof.
  unfold chosen. intros [H1 H2|H1 H2 H3]; replace (h_ud o =? 0) with false by lia.
  - now replace (h_cb o =? 0) with false by lia.
  - replace (h_cb o =? 0) with true by lia. now replace (ocb =? 0) with false by lia.
Qed.
Lemma unserved_chosen o ocb oud : unserved o ocb -> chosen o ocb oud = None.
Proof.
  unfold chosen. intros [H|[H1 H2]]; [now replace (h_ud o =? 0) with true by lia|].
  replace (h_cb o =? 0) with true by lia. replace (ocb =? 0) with true by lia. cbn. now destruct (h_ud o =? 0).
Qed.
Lemma chosen_cases o ocb oud : (exists f u, served o ocb oud f u) \/ unserved o ocb.
Proof.
  destruct (Z.eq_dec (h_ud o) 0); [right; now left|]. destruct (Z.eq_dec (h_cb o) 0); [|left; do 2 eexists; now apply own_callback].
  destruct (Z.eq_dec ocb 0); [right; now right|left; do 2 eexists; now apply option_callback].
Qed.

Definition ask1 (f x u : Z) : prog Z := after (invoke app f x 0 false true u) (fun a =>
    give (Ok (match a_size a with Some n => wrap 64 n | None => 0 end))).
Definition store1 (f x u n : Z) (s1 : wstate) : prog wstate := after (invoke app f x n true false u) (fun a =>
    give (do s2 <- overlay n (a_bytes a) s1; Ok (w_sub n s2)))%res.

Lemma query_served o x ocb oud f u : served o ocb oud f u -> query app o x ocb oud = ask1 f x u.
Proof.
  intros [H1 H2|H1 H2 H3]; unfold query; replace (h_ud o =? 0) with false by lia; cbn [negb].
  - now replace (h_cb o =? 0) with false by lia.
  - replace (h_cb o =? 0) with true by lia. now replace (ocb =? 0) with false by lia.
Qed.
Lemma query_unserved o x ocb oud : unserved o ocb -> query app o x ocb oud = give (Ok 0).
Proof.
  unfold query. intros [H|[H1 H2]]; [now replace (h_ud o =? 0) with true by lia|].
  replace (h_cb o =? 0) with true by lia. replace (ocb =? 0) with true by lia. cbn. now destruct (h_ud o =? 0).
Qed.
Lemma save_served o x ocb oud f u s : served o ocb oud f u -> hook_save app o x ocb oud s =
  after (ask1 f x u) (fun n => after (give (ser_size n s)) (fun s1 =>
    if w_size s1 <? n then give (Err ERR_NOT_ENOUGH_DATA) else store1 f x u n s1)).
Proof.
  intros S. unfold hook_save. rewrite (query_served o x ocb oud f u S). destruct S as [H1 H2|H1 H2 H3]; replace (h_ud o =? 0) with false by lia; cbn [negb].
  - now replace (h_cb o =? 0) with false by lia.
  - replace (h_cb o =? 0) with true by lia. now replace (ocb =? 0) with false by lia.
Qed.

Lemma asked f x u tr a : app tr (asks f x u) = a -> a_bytes a = [] -> ask1 f x u tr =
  (if a_code a <? 0 then Err (a_code a) else Ok (match a_size a with Some n => wrap 64 n | None => 0 end), tr ++ [asks f x u]).
Proof.
  intros E B. unfold ask1, after, invoke. fold (asks f x u). cbv zeta. rewrite E, B. cbn [negb andb]. change (lenZ (@nil Z)) with 0.
  cbn [Z.ltb Z.compare]. now destruct (a_code a <? 0).
Qed.
Lemma stored f x u n s tr a : app tr (stores f x n u) = a -> a_size a = None -> lenZ (a_bytes a) <= n -> store1 f x u n s tr =
  ((if a_code a <? 0 then Err (a_code a) else do s2 <- overlay n (a_bytes a) s; Ok (w_sub n s2))%res, tr ++ [stores f x n u]).
Proof.
  intros E B L. unfold store1, after, invoke. fold (stores f x n u). cbv zeta. rewrite E, B. cbn [negb andb].
  replace (n <? lenZ (a_bytes a)) with false by lia. now destruct (a_code a <? 0).
Qed.
Lemma overlay_full bs s : lenZ bs <= lenZ (w_rest s) -> overlay (lenZ bs) bs s = put_all bs s.
Proof.
  intros H. unfold overlay. replace (lenZ (w_rest s) <? lenZ bs) with false by lia.
  rewrite skipn_all2, app_nil_r; auto. rewrite firstn_length. unfold lenZ. lia.
Qed.
End P.

Section Theorems.
Variable app : list call -> call -> answer.

Lemma save_kept o x ocb oud f u bs b tr :
  served o ocb oud f u -> keeps app f x u bs -> lenZ bs < 2 ^ 64 -> wire_blob bs b ->
  (forall acc, hook_size app o x ocb oud acc tr = (Ok (wrap 64 (acc + lenZ b)), tr ++ [asks f x u])) /\
  encodes (fun s => fst (hook_save app o x ocb oud s tr)) b /\
  (forall s, wf_w s -> snd (hook_save app o x ocb oud s tr) =
     if w_size s <? lenZ b then tr ++ [asks f x u] else tr ++ [asks f x u; stores f x (lenZ bs) u]).
Proof.
  intros S [K1 K2] L W. pose proof (lenZ_nonneg bs) as N.
  assert (Q : ask1 app f x u tr = (Ok (lenZ bs), tr ++ [asks f x u])).
  { destruct (K1 tr) as (c & C & E). rewrite (asked app f x u tr _ E) by reflexivity. cbn [a_code a_size].
    replace (c <? 0) with false by lia. now rewrite wrap_small by lia. }
  assert (SV : forall s, wf_w s -> hook_save app o x ocb oud s tr =
     (ser_user_data (Some bs) s, if w_size s <? lenZ b then tr ++ [asks f x u] else tr ++ [asks f x u; stores f x (lenZ bs) u])).
  { intros s Hs. rewrite (save_served app o x ocb oud f u s S). unfold after at 1. rewrite Q. unfold after at 1, give at 1.
    unfold ser_user_data. cbn [ud_bytes]. destruct W as (l & Lb & ->).
    destruct (ser_uint_encodes 64 (lenZ bs) l (okw64) ltac:(lia) Lb s Hs) as [Y1 Y2]. fold (ser_size (lenZ bs)) in Y1, Y2.
    rewrite lenZ_app. destruct (Z_lt_le_dec (w_size s) (lenZ l)) as [T|T].
    - rewrite (Y2 T). cbn [bind]. now replace (w_size s <? lenZ l + lenZ bs) with true by lia.
    - destruct (Y1 T) as (s1 & E1 & D1 & R1 & Z1). rewrite E1. cbn [bind].
      assert (W1 : wf_w s1) by (eapply wf_after; eauto).
      destruct (w_size s1 <? lenZ bs) eqn:F.
      + cbn. now replace (w_size s <? lenZ l + lenZ bs) with true by lia.
      + replace (w_size s <? lenZ l + lenZ bs) with false by lia.
        destruct (K2 (tr ++ [asks f x u])) as (c & C & E). rewrite (stored app f x u (lenZ bs) s1 _ _ E) by (cbn; auto; lia).
        cbn [a_code a_bytes]. replace (c <? 0) with false by lia. destruct W1 as [V1 V2]. rewrite overlay_full by lia.
        rewrite <- app_assoc. f_equal.
        destruct (lenZ bs =? 0) eqn:F0; [|reflexivity]. destruct (put_all bs s1) as [s2| |] eqn:P; cbn [bind]; auto.
        assert (bs = []) by (apply lenZ_0; lia). subst bs. injection P as <-. unfold w_sub. change (lenZ []) with 0. rewrite Z.sub_0_r, wrap_small by (pose proof (lenZ_nonneg (w_rest s1)); lia).
        now destruct s1. }
  split; [|split].
  - intros acc. unfold hook_size. rewrite (query_served app o x ocb oud f u S). unfold after. rewrite Q. unfold give.
    now rewrite <- (size_user_data_ok (Some bs) b L W).
  - eapply encodes_ext; [|exact (ser_user_data_encodes (Some bs) b L W)]. intros s Hs. now rewrite (SV s Hs).
  - intros s Hs. now rewrite (SV s Hs).
Qed.

Lemma save_unserved o x ocb oud tr : unserved o ocb ->
  (forall acc, hook_size app o x ocb oud acc tr = (Ok (wrap 64 (acc + 1)), tr)) /\
  encodes (fun s => fst (hook_save app o x ocb oud s tr)) [0] /\
  (forall s, snd (hook_save app o x ocb oud s tr) = tr).
Proof.
  intros U.
  assert (SV : forall s, wf_w s -> hook_save app o x ocb oud s tr = (ser_user_data None s, tr)).
  { intros s [W1 W2]. unfold hook_save. rewrite (query_unserved app _ x _ oud U). unfold after, give, ser_user_data. cbn [ud_bytes]. change (lenZ []) with 0.
    destruct (ser_uint_encodes 64 0 [0] okw64 ltac:(lia) (leb_last 0 ltac:(lia)) s (conj W1 W2)) as [Y1 Y2]. fold (ser_size 0) in Y1, Y2.
    change (lenZ [0]) with 1 in *. destruct (Z_lt_le_dec (w_size s) 1) as [T|T].
    - now rewrite (Y2 T).
    - destruct (Y1 T) as (s1 & E1 & D1 & R1 & Z1). rewrite E1. cbn [bind].
      destruct U as [H|[H1 H2]]; [now replace (h_ud o =? 0) with true by lia|].
      replace (h_cb o =? 0) with true by lia. replace (ocb =? 0) with true by lia. cbn [negb].
      replace (w_size s1 <? 0) with false by lia. now destruct (h_ud o =? 0). }
  split; [|split].
  - intros acc. unfold hook_size. rewrite (query_unserved app _ x _ oud U). reflexivity.
  - eapply encodes_ext; [|apply (ser_user_data_encodes None [0])]; [intros s Hs; now rewrite (SV s Hs)|reflexivity|].
    exists [0]. split; [apply leb_last; cbn; lia|reflexivity].
  - intros s. unfold hook_save. rewrite (query_unserved app _ x _ oud U). unfold after, give.
    destruct (ser_size 0 s) as [s1| |]; auto.
    destruct U as [H|[H1 H2]]; [now replace (h_ud o =? 0) with true by lia|].
    replace (h_cb o =? 0) with true by lia. replace (ocb =? 0) with true by lia. cbn [negb].
    destruct (negb (h_ud o =? 0)); auto. now destruct (w_size s1 <? 0).
Qed.

Lemma ask_refused o x ocb oud f u tr c n : served o ocb oud f u -> app tr (asks f x u) = mkAns c n [] -> c < 0 ->
  (forall acc, hook_size app o x ocb oud acc tr = (Err c, tr ++ [asks f x u])) /\
  (forall s, hook_save app o x ocb oud s tr = (Err c, tr ++ [asks f x u])).
Proof.
  intros S E C. pose proof (asked app f x u tr _ E eq_refl) as Q. cbn [a_code] in Q. replace (c <? 0) with true in Q by lia. split.
  - intros acc. unfold hook_size. rewrite (query_served app o x ocb oud f u S). unfold after. now rewrite Q.
  - intros s. rewrite (save_served app o x ocb oud f u s S). unfold after. now rewrite Q.
Qed.

Lemma store_refused o x ocb oud f u tr c c' n l bs s : served o ocb oud f u ->
  app tr (asks f x u) = mkAns c (Some n) [] -> 0 <= c -> 0 <= n < 2 ^ 64 -> leb128 n l ->
  app (tr ++ [asks f x u]) (stores f x n u) = mkAns c' None bs -> lenZ bs <= n -> c' < 0 ->
  wf_w s -> lenZ l + n <= w_size s ->
  hook_save app o x ocb oud s tr = (Err c', tr ++ [asks f x u; stores f x n u]).
Proof.
  intros S E C N L E' B C' Hs R. pose proof (asked app f x u tr _ E eq_refl) as Q. cbn [a_code a_size] in Q. replace (c <? 0) with false in Q by lia. rewrite wrap_small in Q by lia.
  rewrite (save_served app o x ocb oud f u s S). unfold after at 1. rewrite Q.
  destruct (ser_uint_encodes 64 n l okw64 ltac:(lia) L s Hs) as [Y1 _]. destruct Y1 as (s1 & E1 & D1 & R1 & Z1); [lia|].
  unfold after, give. unfold ser_size. rewrite E1. replace (w_size s1 <? n) with false by lia.
  rewrite (stored app f x u n s1 _ _ E') by (cbn; auto; lia). cbn [a_code]. replace (c' <? 0) with true by lia. now rewrite <- app_assoc.
Qed.

Lemma save_tame o x ocb oud s tr : tame app -> wf_w s ->
  match hook_save app o x ocb oud s tr with
  | (Ok s', tr') =>
      exists q b, wire_blob q b /\ w_done s' = w_done s ++ b /\ w_rest s' = skipn (length b) (w_rest s) /\
        lenZ b <= w_size s /\ w_size s' = w_size s - lenZ b /\
        ((unserved o ocb /\ tr' = tr /\ q = []) \/
         exists f u t, served o ocb oud f u /\ tr' = tr ++ [asks f x u; stores f x (lenZ q) u] /\
           q = a_bytes (app (tr ++ [asks f x u]) (stores f x (lenZ q) u)) ++ t)
  | (Err c, tr') =>
      c < 0 /\ (tr' = tr \/ exists f u, served o ocb oud f u /\ (tr' = tr ++ [asks f x u] \/ exists n, tr' = tr ++ [asks f x u; stores f x n u]))
  | (UB _, _) => False
  end.
Proof.
  intros T Hs. destruct (chosen_cases o ocb oud) as [(f & u & S)|U].
  2:{ destruct (save_unserved o x ocb oud tr U) as (_ & En & Tr). destruct (En s Hs) as [Y1 Y2].
      specialize (Tr s). destruct (hook_save app o x ocb oud s tr) as [r tr'] eqn:HS. cbn [fst snd] in Y1, Y2, Tr. subst tr'.
      change (lenZ [0]) with 1 in *. destruct (Z_lt_le_dec (w_size s) 1) as [L|L].
      - rewrite (Y2 L). split; [reflexivity|now left].
      - destruct (Y1 L) as (s' & -> & D & R & Z). exists [], [0]. change (lenZ [0]) with 1. split; [|auto 8].
        exists [0]. split; [apply leb_last; cbn; lia|reflexivity]. }
  rewrite (save_served app o x ocb oud f u s S). unfold after at 1.
  destruct (T tr f x 0 false true u) as (_ & T1 & _). fold (asks f x u) in T1. specialize (T1 eq_refl).
  rewrite (asked app f x u tr _ eq_refl T1).
  destruct (a_code (app tr (asks f x u)) <? 0) eqn:C0; [split; [lia|]; right; exists f, u; auto|].
  set (n := match a_size (app tr (asks f x u)) with Some n => wrap 64 n | None => 0 end).
  assert (N : 0 <= n < 2 ^ 64) by (unfold n; destruct (a_size _); [unfold wrap; apply Z.mod_pos_bound; lia|lia]).
  destruct (size_exists n ltac:(lia)) as [l L].
  destruct (ser_uint_encodes 64 n l okw64 ltac:(lia) L s Hs) as [Y1 Y2]. fold (ser_size n) in Y1, Y2. unfold after at 1, give at 1.
  destruct (Z_lt_le_dec (w_size s) (lenZ l)) as [G|G].
  - rewrite (Y2 G). split; [reflexivity|]. right. exists f, u. auto.
  - destruct (Y1 G) as (s1 & E1 & D1 & R1 & Z1). rewrite E1. assert (W1 : wf_w s1) by (eapply wf_after; eauto).
    destruct (w_size s1 <? n) eqn:F; [split; [reflexivity|]; right; exists f, u; auto|].
    destruct (T (tr ++ [asks f x u]) f x n true false u) as (T2 & _ & T3). fold (stores f x n u) in T2, T3. specialize (T2 eq_refl).
    rewrite (stored app f x u n s1 _ _ eq_refl T2 T3).
    set (a := app (tr ++ [asks f x u]) (stores f x n u)) in *. rewrite <- app_assoc. cbn [List.app].
    destruct (a_code a <? 0) eqn:C1; [split; [lia|]; right; exists f, u; eauto|].
    destruct W1 as [V1 V2]. unfold overlay. replace (lenZ (w_rest s1) <? n) with false by lia.
    set (t := skipn (length (a_bytes a)) (firstn (Z.to_nat n) (w_rest s1))).
    assert (Q : lenZ (a_bytes a ++ t) = n). { rewrite lenZ_app. unfold t, lenZ in *. rewrite skipn_length, firstn_length. lia. }
    rewrite put_all_ok by lia. cbn [bind]. unfold w_sub. cbn [w_done w_rest w_size].
    exists (a_bytes a ++ t), (l ++ a_bytes a ++ t). rewrite Q, lenZ_app, Q.
    split; [exists l; now rewrite Q|]. split; [rewrite D1; now rewrite !app_assoc|].
    split; [rewrite R1, skipn_skipn'; f_equal; rewrite (app_length l); lia|]. split; [lia|].
    split; [rewrite wrap_small by lia; lia|]. right. exists f, u, t. auto.
Qed.

Lemma load_called x dcb dud bs b tl n tr : lenZ bs < 2 ^ 64 -> wire_blob bs b -> lenZ b <= n <= lenZ (b ++ tl) -> n < 2 ^ 64 ->
  hook_load app x dcb dud (mkR (b ++ tl) n) tr =
    if (lenZ bs =? 0) || (dcb =? 0) then (Ok (mkR tl (n - lenZ b)), tr)
    else let k := Load dcb x (lenZ bs) bs dud in let c := a_code (app tr k) in
         (if c <? 0 then Err c else Ok (mkR tl (n - lenZ b)), tr ++ [k]).
Proof.
  intros Hb W Hn Hn'. pose proof (deser_user_data_ok bs b tl n Hb W Hn Hn') as D. destruct W as (l & L & ->).
  unfold deser_user_data in D. unfold hook_load, after, give.
  pose proof (lenZ_nonneg bs) as Nb. pose proof (lenZ_nonneg tl) as Nt. pose proof (lenZ_nonneg l) as Nl.
  destruct (deser_uint_decodes 64 (lenZ bs) l okw64 ltac:(lia) L) as [DD _]. unfold deser_size in *.
  rewrite <- app_assoc in *. rewrite DD in * by (rewrite !lenZ_app in *; lia). cbn [bind] in D.
  destruct (lenZ bs =? 0) eqn:E.
  - cbn [orb]. injection D as E1 E2 E3. now rewrite E2, E3.
  - cbn [orb r_mem] in *. destruct (lenZ (bs ++ tl) <? lenZ bs); [discriminate|].
    destruct (peek_n (Z.to_nat (lenZ bs)) (bs ++ tl)) as [p| |] eqn:P; cbn [bind] in D; try discriminate.
    destruct (advance _ _) as [r| |] eqn:A; cbn [bind] in D; try discriminate. injection D as -> ->.
    destruct (dcb =? 0); [reflexivity|]. cbv zeta. now destruct (a_code _ <? 0).
Qed.
End Theorems.

(** An application with nothing to save that stores its size whenever the size it is given is zero. *)
Definition zero_app (tr : list call) (k : call) : answer :=
  match k with Save _ _ 0 _ _ _ => mkAns 0 (Some 0) [] | _ => mkAns 0 None [] end.
Lemma zero_breaks o x ocb oud f u s tr : served o ocb oud f u -> wf_w s -> 1 <= w_size s ->
  fst (hook_save zero_app o x ocb oud s tr) = UB UBBounds.
Proof.
  intros S W L. rewrite (save_served zero_app o x ocb oud f u s S). unfold after at 1.
  rewrite (asked zero_app f x u tr _ eq_refl eq_refl). cbn [a_code a_size zero_app asks Z.ltb Z.compare]. change (wrap 64 0) with 0. unfold after, give.
  destruct (ser_uint_encodes 64 0 [0] okw64 ltac:(lia) (leb_last 0 ltac:(lia)) s W) as [Y1 _]. destruct Y1 as (s1 & E1 & D1 & R1 & Z1); [exact L|].
  unfold ser_size. rewrite E1. change (lenZ [0]) with 1 in Z1. replace (w_size s1 <? 0) with false by lia. reflexivity.
Qed.

Lemma setters m x ud cb cud p : 
  (x <> 0 -> exists m1 m2, set_user_data x ud m = Ok m1 /\ set_serialize_callback x cb cud m = Ok m2 /\
     (p <> 0 -> get_user_data x p m1 = Ok ud /\ get_user_data x p m2 = get_user_data x p m) /\
     (forall y, y <> x -> m1 y = m y /\ m2 y = m y) /\
     (forall ocb oud f u, ud <> 0 -> (served (m1 x) ocb oud f u <-> served (mkHobj 1 (h_cb (m x)) (h_cbud (m x))) ocb oud f u)) /\
     (forall ocb, ud = 0 -> unserved (m1 x) ocb) /\
     (forall ocb oud f u, h_ud (m x) <> 0 -> cb <> 0 -> (served (m2 x) ocb oud f u <-> f = cb /\ u = cud)) /\
     (forall ocb oud f u, h_ud (m x) <> 0 -> cb = 0 -> (served (m2 x) ocb oud f u <-> ocb <> 0 /\ f = ocb /\ u = oud))) /\
  set_user_data 0 ud m = Err ERR_INVALID_OBJECT /\ set_serialize_callback 0 cb cud m = Err ERR_INVALID_OBJECT /\
  get_user_data 0 p m = Err ERR_INVALID_OBJECT /\ (x <> 0 -> get_user_data x 0 m = Err ERR_INVALID_VALUE).
Proof.
  split; [|repeat split; intros; unfold get_user_data; now replace (x =? 0) with false by lia].
  intros X. unfold set_user_data, set_serialize_callback, get_user_data. replace (x =? 0) with false by lia.
  do 2 eexists. split; [reflexivity|]. split; [reflexivity|].
  assert (U : forall o, upd m x o x = o) by (intro; unfold upd; now rewrite Z.eqb_refl).
  rewrite !U. cbn [h_ud h_cb h_cbud].
  split; [intros P; now replace (p =? 0) with false by lia|].
  split; [intros y Y; unfold upd; now replace (y =? x) with false by lia|].
  split; [intros ocb oud f u K; split; intros [A B|A B C]; cbn [h_ud h_cb h_cbud] in *; (apply (own_callback (mkHobj _ _ _)) || apply option_callback); cbn; auto; lia|].
  split; [intros; now left|].
  split; intros ocb oud f u K1 K2; split.
  - intros [A B|A B C]; cbn in *; [auto|contradiction].
  - intros [-> ->]. now apply (own_callback (mkHobj (h_ud (m x)) cb cud)).
  - intros [A B|A B C]; cbn in *; [contradiction|auto].
  - intros (A & -> & ->). now apply option_callback.
Qed.

Lemma served_once o ocb oud :
  ((exists f u, served o ocb oud f u) \/ unserved o ocb) /\
  (forall f u, served o ocb oud f u -> ~ unserved o ocb) /\
  (forall f u f' u', served o ocb oud f u -> served o ocb oud f' u' -> f = f' /\ u = u').
Proof.
  split; [apply chosen_cases|]. split.
  - intros f u S U. apply served_chosen in S as [S _]. apply (unserved_chosen o ocb oud) in U. congruence.
  - intros f u f' u' S S'. apply served_chosen in S as [S _]. apply served_chosen in S' as [S' _]. rewrite S in S'. now injection S'.
Qed.
Lemma zero_size_query :
  exists app, (forall tr f x data ret u, app tr (Save f x 0 data ret u) = mkAns 0 (Some 0) []) /\
    forall o x ocb oud f u s tr, served o ocb oud f u -> wf_w s -> 1 <= w_size s ->
      fst (hook_save app o x ocb oud s tr) = UB UBBounds.
Proof. exists zero_app. split; [reflexivity|exact zero_breaks]. Qed.

Lemma saved_loaded app app' o x ocb oud f u bs : served o ocb oud f u -> keeps app f x u bs -> bs <> [] -> lenZ bs < 2 ^ 64 ->
  exists b, (forall acc tr, fst (hook_size app o x ocb oud acc tr) = Ok (wrap 64 (acc + lenZ b))) /\
  forall s tr, wf_w s -> lenZ b <= w_size s ->
  exists s' tr', hook_save app o x ocb oud s tr = (Ok s', tr') /\ w_done s' = w_done s ++ b /\ w_size s' = w_size s - lenZ b /\
  forall y dcb dud tl tr2, dcb <> 0 -> lenZ (b ++ tl) < 2 ^ 64 ->
    hook_load app' y dcb dud (mkR (b ++ tl) (lenZ (b ++ tl))) tr2 =
      (let c := a_code (app' tr2 (Load dcb y (lenZ bs) bs dud)) in if c <? 0 then Err c else Ok (mkR tl (lenZ tl)), tr2 ++ [Load dcb y (lenZ bs) bs dud]).
Proof.
  intros S K NE L. destruct (size_exists (lenZ bs) (lenZ_nonneg bs)) as [l Ll]. assert (B : wire_blob bs (l ++ bs)) by (exists l; auto). set (b := l ++ bs) in *. exists b.
  split; [intros acc tr; destruct (save_kept app o x ocb oud f u bs b tr S K L B) as (Z1 & _); now rewrite Z1|].
  intros s tr W R. destruct (save_kept app o x ocb oud f u bs b tr S K L B) as (_ & E & _). destruct (E s W) as [Y _]. destruct (Y R) as (s' & E1 & D1 & R1 & Z1).
  destruct (hook_save app o x ocb oud s tr) as [r tr'] eqn:H. cbn [fst] in E1. subst r. exists s', tr'. repeat (split; [assumption || reflexivity|]).
  intros y dcb dud tl tr2 N LL. pose proof (lenZ_nonneg b). pose proof (lenZ_nonneg tl). rewrite (load_called app' y dcb dud bs b tl _ tr2 L B) by (rewrite ?lenZ_app in *; lia).
  replace (lenZ bs =? 0) with false. 2:{ symmetry. apply Z.eqb_neq. intro X. apply NE. now apply lenZ_0. }
  replace (dcb =? 0) with false by lia. cbn [orb]. cbv zeta. rewrite lenZ_app. now replace (lenZ b + lenZ tl - lenZ b) with (lenZ tl) by lia.
Qed.
