(** Proofs about the functions that fill arrays. *)
From Coq Require Import ZArith List Bool Lia Sorted.
From Verif Require Import Base Datum CodecModel FloatModel TreeModel GetterModel GetterSpec.
Import ListNotations.
Open Scope Z_scope.

Lemma len_nat {A : Type} (l : list A) : lenZ l = Z.of_nat (length l).
Proof. reflexivity. Qed.

(** ** One cell *)
Lemma cell_at {T : Type} (f : T -> T) pre x post : cell (lenZ pre) f (pre ++ x :: post) = Some (pre ++ f x :: post).
Proof.
  unfold cell. rewrite !len_nat. destruct (Z.ltb_spec (Z.of_nat (length pre)) 0); [lia|]. rewrite Nat2Z.id.
  rewrite nth_error_app2, Nat.sub_diag by lia. cbn [nth_error]. rewrite firstn_app, Nat.sub_diag, firstn_all, app_nil_r.
  rewrite skipn_app, skipn_all2 by lia. replace (S (length pre) - length pre)%nat with 1%nat by lia. reflexivity.
Qed.
Lemma store_a_at {A B : Type} (v : A) pre x post (b : option (list B)) n i : i = lenZ pre ->
  store_a i v (mkMem (Some (pre ++ x :: post)) b n) = Next (mkMem (Some (pre ++ v :: post)) b n).
Proof. intros ->. unfold store_a, update_a. cbn [m_a m_b m_n]. now rewrite cell_at. Qed.
Lemma store_b_at {A B : Type} (v : B) pre x post (a : option (list A)) n i : i = lenZ pre ->
  store_b i v (mkMem a (Some (pre ++ x :: post)) n) = Next (mkMem a (Some (pre ++ v :: post)) n).
Proof. intros ->. unfold store_b, update_b. cbn [m_a m_b m_n]. now rewrite cell_at. Qed.

Lemma lenZ_snoc {A : Type} (l : list A) x : lenZ (l ++ [x]) = lenZ l + 1.
Proof. rewrite !len_nat, app_length. cbn [length]. lia. Qed.
Lemma snoc_app {A : Type} (l : list A) x k : l ++ x :: k = (l ++ [x]) ++ k.
Proof. now rewrite <- app_assoc. Qed.

(** ** Loops that write *)
Lemma each_writes {A B T : Type} (f : T -> A) (b : option (list B)) n : forall (l : list T) i pre old, i = lenZ pre -> (length l <= length old)%nat ->
  each l i (fun j x => store_a j (f x)) (mkMem (Some (pre ++ old)) b n) = Next (mkMem (Some (pre ++ map f l ++ skipn (length l) old)) b n).
Proof.
  induction l as [|x l IH]; intros i pre old E L; [reflexivity|].
  destruct old as [|y old]; cbn [length] in L; [lia|]. cbn [each map length skipn]. unfold seq. rewrite (store_a_at (f x) pre y old b n i E).
  rewrite (snoc_app pre). rewrite (IH (i + 1) (pre ++ [f x]) old) by (rewrite ?lenZ_snoc; lia). now rewrite <- app_assoc.
Qed.
Lemma each2_writes {A B T : Type} (f : T -> A) (g : T -> B) n : forall (l : list T) i pre old pre' old', i = lenZ pre -> i = lenZ pre' ->
  (length l <= length old)%nat -> (length l <= length old')%nat ->
  each l i (fun j x => store_a j (f x) ;; store_b j (g x)) (mkMem (Some (pre ++ old)) (Some (pre' ++ old')) n)
  = Next (mkMem (Some (pre ++ map f l ++ skipn (length l) old)) (Some (pre' ++ map g l ++ skipn (length l) old')) n).
Proof.
  induction l as [|x l IH]; intros i pre old pre' old' E E' L L'; [reflexivity|].
  destruct old as [|y old]; cbn [length] in L; [lia|]. destruct old' as [|z old']; cbn [length] in L'; [lia|].
  cbn [each map length skipn]. unfold seq at 1 2. rewrite (store_a_at (f x) pre y old _ n i E), (store_b_at (g x) pre' z old' _ n i E').
  rewrite (snoc_app pre (f x)), (snoc_app pre' (g x)). rewrite (IH (i + 1) (pre ++ [f x]) old (pre' ++ [g x]) old') by (rewrite ?lenZ_snoc; lia). now rewrite <- !app_assoc.
Qed.
Lemma times_pad {A B : Type} (g : A -> A) (b : option (list B)) n : forall k i pre old, i = lenZ pre -> (k <= length old)%nat ->
  times k i (fun j => update_a j g) (mkMem (Some (pre ++ old)) b n) = Next (mkMem (Some (pre ++ map g (firstn k old) ++ skipn k old)) b n).
Proof.
  induction k as [|k IH]; intros i pre old E L; [reflexivity|].
  destruct old as [|y old]; cbn [length] in L; [lia|]. cbn [times firstn map skipn]. unfold seq, update_a at 1. cbn [m_a m_b m_n]. rewrite E, cell_at.
  rewrite (snoc_app pre). rewrite (IH (lenZ pre + 1) (pre ++ [g y]) old) by (rewrite ?lenZ_snoc; lia). now rewrite <- app_assoc.
Qed.
Lemma times_pad2 {A B : Type} (va : A) (vb : B) n : forall k i pre old pre' old', i = lenZ pre -> i = lenZ pre' -> (k <= length old)%nat -> (k <= length old')%nat ->
  times k i (fun j => store_a j va ;; store_b j vb) (mkMem (Some (pre ++ old)) (Some (pre' ++ old')) n)
  = Next (mkMem (Some (pre ++ map (fun _ => va) (firstn k old) ++ skipn k old)) (Some (pre' ++ map (fun _ => vb) (firstn k old') ++ skipn k old')) n).
Proof.
  induction k as [|k IH]; intros i pre old pre' old' E E' L L'; [reflexivity|].
  destruct old as [|y old]; cbn [length] in L; [lia|]. destruct old' as [|z old']; cbn [length] in L'; [lia|].
  cbn [times firstn map skipn]. unfold seq at 1 2. rewrite (store_a_at va pre y old _ n i E), (store_b_at vb pre' z old' _ n i E').
  rewrite (snoc_app pre va), (snoc_app pre' vb). rewrite (IH (i + 1) (pre ++ [va]) old (pre' ++ [vb]) old') by (rewrite ?lenZ_snoc; lia). now rewrite <- !app_assoc.
Qed.
(** copying cell by cell what a computation reads *)
Lemma times_at {A B : Type} (rd : Z -> (A -> prog A B) -> prog A B) (items : list A) (b : option (list B)) n :
  (forall i x, nth_error items i = Some x -> forall k m, rd (Z.of_nat i) k m = k x m) ->
  forall k i pre old, (i + k = length items)%nat -> i = length pre -> (k <= length old)%nat ->
  times k (Z.of_nat i) (fun j => rd j (store_a j)) (mkMem (Some (pre ++ old)) b n)
  = Next (mkMem (Some (pre ++ skipn i items ++ skipn k old)) b n).
Proof.
  intro R. induction k as [|k IH]; intros i pre old E P L; cbn [times].
  - rewrite skipn_all2 by lia. reflexivity.
  - destruct old as [|y old]; cbn [length] in L; [lia|].
    destruct (nth_error items i) as [x|] eqn:N; [|apply nth_error_None in N; lia].
    unfold seq. rewrite (R i x N). rewrite (store_a_at x pre y old b n (Z.of_nat i)) by (rewrite len_nat; lia).
    replace (Z.of_nat i + 1) with (Z.of_nat (S i)) by lia. rewrite (snoc_app pre). rewrite (IH (S i) (pre ++ [x]) old) by (rewrite ?app_length; cbn [length]; lia).
    rewrite <- app_assoc. do 3 f_equal. cbn [app skipn].
    assert (SK : skipn i items = x :: skipn (S i) items).
    { clear -N. revert items N. induction i as [|i IH]; intros [|z items] N; cbn in *; try discriminate; [now injection N as ->|]. exact (IH items N). }
    rewrite SK. reflexivity.
Qed.
Lemma upto_copy {A B : Type} (rd : Z -> (A -> prog A B) -> prog A B) (items : list A) (b : option (list B)) n old size :
  (forall i x, nth_error items i = Some x -> forall k m, rd (Z.of_nat i) k m = k x m) ->
  size = lenZ items -> (length items <= length old)%nat ->
  upto 0 size (fun j => rd j (store_a j)) (mkMem (Some old) b n) = Next (mkMem (Some (items ++ skipn (length items) old)) b n).
Proof.
  intros R -> L. unfold upto. rewrite Z.sub_0_r, len_nat, Nat2Z.id. exact (times_at rd items b n R (length items) 0 [] old eq_refl eq_refl L).
Qed.
Lemma at_reads {T A B : Type} (l : list T) i x : nth_error l i = Some x -> forall (k : T -> prog A B) m, at_ l (Z.of_nat i) k m = k x m.
Proof. intros N k m. unfold at_. destruct (Z.ltb_spec (Z.of_nat i) 0); [lia|]. now rewrite Nat2Z.id, N. Qed.
Lemma upto_pad {A B : Type} (g : A -> A) (b : option (list B)) n pre old lo hi : lo = lenZ pre -> hi <= lenZ pre + lenZ old ->
  upto lo hi (fun j => update_a j g) (mkMem (Some (pre ++ old)) b n)
  = Next (mkMem (Some (pre ++ map g (firstn (Z.to_nat (hi - lo)) old) ++ skipn (Z.to_nat (hi - lo)) old)) b n).
Proof. intros E L. apply times_pad; [exact E|]. rewrite !len_nat in *. lia. Qed.

(** ** The result *)
Lemma result_fetched {A : Type} (items : list A) pad num old : lenZ items <= num -> num <= lenZ old ->
  let k := Z.to_nat (num - lenZ items) in let rest := skipn (length items) old in
  fetched items pad num old (items ++ map pad (firstn k rest) ++ skipn k rest).
Proof.
  intros L1 L2 k rest. rewrite !len_nat in *.
  assert (LK : Z.of_nat k = num - Z.of_nat (length items)) by (unfold k; rewrite len_nat; lia). clearbody k.
  assert (LR : length rest = (length old - length items)%nat) by (subst rest; now rewrite skipn_length).
  assert (LF : length (map pad (firstn k rest)) = k) by (rewrite map_length, firstn_length; lia).
  assert (NR : forall i, nth_error rest i = nth_error old (length items + i)).
  { intro i. subst rest. rewrite <- (firstn_skipn (length items) old) at 2. rewrite nth_error_app2 by (rewrite firstn_length; lia). f_equal. rewrite firstn_length. lia. }
  clearbody rest. split.
  - rewrite !app_length, LF, skipn_length, LR. lia.
  - intros i x N. rewrite nth_error_app1; [exact N|]. apply nth_error_Some. congruence.
  - intros i x LI LN N. rewrite nth_error_app2 by lia. rewrite nth_error_app1 by lia. rewrite nth_error_map.
    specialize (NR (i - length items)%nat). replace (length items + (i - length items))%nat with i in NR by lia. rewrite N in NR.
    rewrite <- (firstn_skipn k rest) in NR. rewrite nth_error_app1 in NR by (rewrite firstn_length; lia). now rewrite NR.
  - intros i LI. rewrite nth_error_app2 by lia. rewrite nth_error_app2 by lia. rewrite LF.
    specialize (NR (i - length items)%nat). replace (length items + (i - length items))%nat with i in NR by lia. rewrite <- NR.
    rewrite <- (firstn_skipn k rest) at 2. rewrite nth_error_app2 by (rewrite firstn_length; lia). f_equal. rewrite firstn_length. lia.
Qed.

(** ** The common frame of the functions *)
Section Frame.
  Context {A : Type}.
  Variable p : Z -> prog A unit.
  Variable items : list A.
  Variable pad : A -> A.
  Variable body : Z -> prog A unit.
  Hypothesis fills : forall num old n, lenZ items <= num -> num <= lenZ old ->
    exists l', fetched items pad num old l' /\ body num (mkMem (Some old) None n) = Next (mkMem (Some l') None n).
  Lemma frame_gives :
    (forall num, p num = (check_a num ;; nothing_asked ;;
                          (when has_a (deny (num <? lenZ items) ERR_INVALID_VALUE ;; body num) ;; when has_n (store_n (lenZ items))))) ->
    gives p items pad.
  Proof.
    intros E num old n N R. rewrite E. unfold seq, check_a, nothing_asked, deny_if, when, has_a, has_n, deny. cbn [m_a m_b m_n].
    destruct old as [l|]; cbn [is_null negb andb].
    - rewrite andb_false_r. cbn [m_a m_b m_n is_null andb negb]. destruct (Z.ltb_spec num (lenZ items)) as [L|L]; [left; auto|right]. split; [exact L|].
      destruct (fills num l n L R) as (l' & F & ->). exists l'. split; [exact F|]. cbn [m_a m_b m_n]. destruct n; reflexivity.
    - rewrite andb_true_r. destruct (Z.ltb_spec 0 num) as [P|P]; [right; auto|]. cbn [m_a m_b m_n is_null negb andb]. destruct n as [z|]; cbn [is_null negb]; [left|right; auto].
      split; [lia|]. split; [discriminate|reflexivity].
  Qed.
End Frame.


Definition wr {A : Type} (items : list A) (copy : prog A unit) : Prop :=
  forall old n, (length items <= length old)%nat -> copy (mkMem (Some old) None n) = Next (mkMem (Some (items ++ skipn (length items) old)) None n).
Lemma copy_pad {A : Type} (items : list A) pad (copy : prog A unit) : wr items copy ->
  forall num old n, lenZ items <= num -> num <= lenZ old ->
  exists l', fetched items pad num old l' /\
    (copy ;; upto (lenZ items) num (fun i => update_a i pad)) (mkMem (Some old) None n) = Next (mkMem (Some l') None n).
Proof.
  intros C num old n L R. eexists. split; [exact (result_fetched items pad num old L R)|].
  unfold seq. rewrite C by (rewrite !len_nat in *; lia). rewrite upto_pad; [reflexivity|reflexivity|].
  rewrite !len_nat in *. rewrite skipn_length. lia.
Qed.

Lemma framed {A : Type} (p : Z -> prog A unit) (items : list A) pad (copy : prog A unit) : wr items copy ->
  (forall num, p num = (check_a num ;; nothing_asked ;;
     (when has_a (deny (num <? lenZ items) ERR_INVALID_VALUE ;; copy ;; upto (lenZ items) num (fun i => update_a i pad)) ;;
      when has_n (store_n (lenZ items))))) ->
  gives p items pad.
Proof.
  intros W E. exact (frame_gives p items pad (fun num => copy ;; upto (lenZ items) num (fun i => update_a i pad)) (copy_pad items pad copy W) E).
Qed.
