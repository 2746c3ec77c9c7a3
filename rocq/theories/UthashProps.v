(** C81: the hash tables are the lists of their entries. *)
From Coq Require Import ZArith List Bool.
From Verif Require Import Base Datum CodecModel CmpModel MapModel UthashModel UthashSpec
  UthashFacts.
Import ListNotations.
Open Scope Z_scope.

(** Whatever the application does with a table, within its obligations, and whatever
    the hash function, the comparison, the content of memory and the allocator are:
    no operation is undefined and every answer is that of the list *)
Theorem C81_tables : forall K (hash : K -> Z -> Z) (same : K -> K -> Z -> bool) N fuel garbage p,
  0 <= N < 2 ^ 32 -> (Z.to_nat N < fuel)%nat ->
  legal K hash same N (empty K) p ->
  exists l, run K hash same fuel (nothing K garbage) p = Ok l
            /\ told K hash same (empty K) p l.
Proof. exact run_from_nothing. Qed.
Print Assumptions C81_tables.

(** With at most one entry for a key, a search gives the entry of the list *)
Theorem C81_search : forall K (hash : K -> Z -> Z) (same : K -> K -> Z -> bool) v k len r v',
  does K hash same v (Find K k len) (Found r) v' ->
  (forall e1 e2, In e1 (v_list K v) -> In e2 (v_list K v) ->
     matching K hash same k len e1 -> matching K hash same k len e2 -> e1 = e2) ->
  r = match find (fun e => (hash (e_key K e) (e_len K e) =? hash k len) && (e_len K e =? len)
                           && same (e_key K e) k len) (v_list K v) with
      | Some e => e_at K e
      | None => 0
      end.
Proof. exact find_unique. Qed.
Print Assumptions C81_search.

(** The table of a map is the list of pairs by which the maps are modelled: its searches
    and deletions are those of the list *)
Theorem C81_maps : forall jen val v k len r v',
  does datum (dhash jen) dsame v (Find datum k len) (Found r) v' ->
  NoDup (map (e_at datum) (v_list datum v)) -> ~ In 0 (map (e_at datum) (v_list datum v)) ->
  (forall e, In e (v_list datum v) -> e_len datum e = len) ->
  (forall e1 e2, In e1 (v_list datum v) -> In e2 (v_list datum v) ->
     matching datum (dhash jen) dsame k len e1 ->
     matching datum (dhash jen) dsame k len e2 -> e1 = e2) ->
  MapModel.hash_find jen (map (pair_of val) (v_list datum v)) k
  = (if r =? 0 then None
     else option_map (pair_of val) (find (fun e => e_at _ e =? r) (v_list datum v)))
  /\ MapModel.hash_del jen (map (pair_of val) (v_list datum v)) k
     = map (pair_of val) (without datum r (v_list datum v)).
Proof. exact map_table. Qed.
Print Assumptions C81_maps.

(** Twelve elements whose keys all hash to 0: the tenth and later ones lengthen one
    chain, the tenth makes the table grow (or is refused when there is no memory), and
    the answers stay those of the list *)
Fixpoint script (l : list (op Z)) : client Z :=
  match l with [] => Stop Z | o :: r => Do Z o (fun _ => script r) end.
Definition fresh (a : Z) : op Z := New Z a 1 2 3 4 5 6 7 8.
Definition put_in (alloc : Z -> bool) (a : Z) : list (op Z) :=
  [fresh a; Add Z alloc 99 (a * 10) 8 a].
Definition plenty (n : Z) : bool := n <? 2 ^ 36.
Definition short (n : Z) : bool := n <? 1024.
Definition twelve (alloc : Z -> bool) : client Z :=
  script (flat_map (put_in alloc) [1; 2; 3; 4; 5; 6; 7; 8; 9; 10; 11; 12]
          ++ [Count Z; Find Z 100 8; Find Z 30 8; Find Z 30 7; Delete Z 1; Delete Z 5; Free Z 5;
              Find Z 50 8; Iterate Z; DeleteAll Z true; Count Z; Find Z 30 8]).
Definition answers (o : out) : bool :=
  match o with Nothing => false | Added false => false | _ => true end.
Example C81_ex :
  let run alloc := match run Z (fun _ _ => 0) (fun a b _ => a =? b) 20 (nothing Z 5) (twelve alloc) with
             | Ok l => Ok (filter answers l) | Err c => Err c | UB w => UB w end in
  run plenty = Ok [Counted 12; Found 10; Found 3; Found 0; Found 0;
                   Seen [2; 3; 4; 6; 7; 8; 9; 10; 11; 12];
                   Seen [2; 3; 4; 6; 7; 8; 9; 10; 11; 12]; Counted 0; Found 0]
  /\ run short = Ok [Added true; Added true; Added true; Counted 9; Found 0; Found 3; Found 0;
                     Found 0; Seen [2; 3; 4; 6; 7; 8; 9]; Seen [2; 3; 4; 6; 7; 8; 9];
                     Counted 0; Found 0].
Proof. vm_compute. split; reflexivity. Qed.

(** An application that keeps to its obligations, whatever it is told *)
Example C81_legal :
  legal Z (fun k _ => k) (fun a b _ => a =? b) 5 (empty Z)
    (Do Z (fresh 1) (fun _ => Do Z (Add Z plenty 99 10 8 1) (fun x =>
       match x with
       | Added false => Do Z (Delete Z 1) (fun _ => Do Z (Free Z 1) (fun _ => Stop Z))
       | _ => Stop Z
       end))).
Proof.
  split; [split; [discriminate|intros []]|]. intros x v D. inversion D; subst.
  split.
  - split; [discriminate|]. split; [reflexivity|]. split; [intros []|]. split; [discriminate|].
    intros n Hn. unfold plenty. apply Z.ltb_ge. exact Hn.
  - intros x v' D'. inversion D'; subst; [|exact I].
    split; [left; reflexivity|]. intros x v'' D''. inversion D''; subst.
    split; [intros []|]. intros; exact I.
Qed.
