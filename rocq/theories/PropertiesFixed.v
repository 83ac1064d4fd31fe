(** Theorems about the array-based [btree::fixed::BTreeMap<K, V>] (properties C42-C44,
    C70-C76).

    [f_shows bor cmp m l] (FixedSpec.v): the arrays of [m] hold exactly the entries [l] in
    ascending order, [len] is their number, every node but the root has 5 to 11
    entries (the root 1 to 11) and one more child than entries, and all leaves are at
    the same depth. Arrays are lists of optional slots; reading a slot that was never
    written is a panic, so [Ok] means: no panic and no read of uninitialised memory.
    [small_key] (core.rs:288-316) chooses between the linear and the binary key search;
    every theorem holds for both. Keys are compared through their borrowed form; keys that
    compare equal need not be identical. *)
From Coq Require Import List ZArith Bool Permutation Lia.
From Verif Require Import Base Spec MapSpec Vec FixedModel FixedIterModel FixedSpec FixedShows
  FixedChkProofs FixedIterShows FixedMutProofs FixedDropProofs.
Import ListNotations.
Open Scope Z_scope.

(** ** Sample data: keys are pairs compared by their first component only. *)
Definition fkey : Type := (Z * Z)%type.
Definition fkbor (k : fkey) : Z := fst k.
Definition fkv (n : Z) : fkey * Z := ((n, 0), 10 * n).
Definition zs (n : nat) : list Z := map Z.of_nat (seq 1 n).
Definition fforce (r : res (f_map fkey Z)) : f_map fkey Z :=
  match r with Ok m => m | Panic => f_new end.
(** One hundred entries inserted in ascending order: three levels. *)
Definition e100 := map fkv (zs 100).
Definition f100 := Eval vm_compute in fforce (f_from_iter fkbor Z.compare true e100).
(** Twelve entries: a root and two leaves. *)
Definition e12 := map fkv (zs 12).
Definition f12 := Eval vm_compute in fforce (f_from_iter fkbor Z.compare false e12).

Section Fixed.
Context {K V Q : Type} (bor : K -> Q) (cmp : Q -> Q -> comparison) (laws : order_laws cmp).
Context (small_key : bool).
Notation f_shows := (@FixedSpec.f_shows K V Q bor cmp).

(** C42: any history of calls on a new map answers as on the sorted list of entries,
    without a panic, and the map stays well formed. *)
Theorem C42_history os : exists m : f_map K V,
  f_run bor cmp small_key f_new os = Ok (m, snd (s_f_run bor cmp [] os))
  /\ f_shows m (fst (s_f_run bor cmp [] os)).
Proof. exact (f_run_l bor cmp laws small_key os f_new [] (proj1 (f_new_l bor cmp))). Qed.

Theorem C42_insert m l k v : f_shows m l ->
  exists m', f_insert bor cmp small_key m k v = Ok (m', s_get bor cmp (bor k) l)
    /\ f_shows m' (s_insert bor cmp k v l).
Proof. exact (f_insert_l bor cmp laws small_key m l k v). Qed.
Theorem C42_remove m l q : f_shows m l ->
  exists m', f_remove bor cmp small_key m q = Ok (m', s_get bor cmp q l)
    /\ f_shows m' (s_remove bor cmp q l).
Proof. exact (f_remove_l bor cmp laws small_key m l q). Qed.
Theorem C42_get m l q : f_shows m l -> f_get bor cmp small_key m q = Ok (s_get bor cmp q l).
Proof. exact (f_get_l bor cmp laws small_key m l q). Qed.
Theorem C42_get_mut m l q w : f_shows m l ->
  exists m', f_get_mut bor cmp small_key m q w = Ok (m', s_get bor cmp q l)
    /\ f_shows m' (s_update bor cmp q w l).
Proof. exact (f_get_mut_l bor cmp laws small_key m l q w). Qed.
Theorem C42_len m l : f_shows m l -> f_len m = length l /\ f_is_empty m = (length l =? 0)%nat.
Proof. exact (f_len_l bor cmp m l). Qed.
Theorem C42_from_iter ps :
  exists m, f_from_iter bor cmp small_key ps = Ok m /\ f_shows m (s_extend bor cmp [] ps).
Proof. exact (f_from_iter_l bor cmp laws small_key ps). Qed.
Theorem C42_extend m l ps : f_shows m l ->
  exists m', f_extend bor cmp small_key m ps = Ok m' /\ f_shows m' (s_extend bor cmp l ps).
Proof. exact (f_extend_l bor cmp laws small_key m l ps). Qed.

(** Forward iteration: any number of calls of [next] on [iter()] and on [into_iter()],
    whichever nodes are shared ([un] says which are found unshared). *)
Theorem C42_iter m l n : f_shows m l ->
  runs borrowed (fixed_iter m) (repeat Front n) (s_ends (repeat Front n) l)
  /\ forall un, runs (owning un) (fixed_into_iter un m) (repeat Front n) (s_ends (repeat Front n) l).
Proof.
  intros H. apply (iter_front bor cmp); auto. apply Forall_forall. intros c Hc. now apply repeat_spec in Hc.
Qed.

(** ** C43: a split of a full node. The new entry belongs between [es1] and [es2] (and the new child,
    which holds what is less than the new entry, between [ns1] and [ns2]). The two result nodes
    and the divider hold old and new entries in order, in arrays written from the start,
    and both nodes have at least five. *)
Theorem C43_split_leaf (e : elems K V) es1 es2 kv :
  length (es1 ++ es2) = 11%nat -> elems_at e (es1 ++ es2) ->
  exists lo div hi le he,
    ins_split (FNode e None) (length es1) None kv = Ok (FNode he None, FSplit (Some (FNode le None)) div)
    /\ elems_at le lo /\ elems_at he hi /\ lo ++ div :: hi = es1 ++ kv :: es2
    /\ (5 <= length lo)%nat /\ (5 <= length hi)%nat.
Proof. exact (split_leaf_l e es1 es2 kv). Qed.
Theorem C43_split_branch (e : elems K V) d es1 es2 ns1 ns2 kid kv :
  length (es1 ++ es2) = 11%nat -> length (ns1 ++ ns2) = 12%nat -> length ns1 = length es1 ->
  elems_at e (es1 ++ es2) -> kids_at d (ns1 ++ ns2) ->
  exists lo div hi nlo nhi le he ld hd,
    ins_split (FNode e (Some d)) (length es1) (Some kid) kv
    = Ok (FNode he (Some hd), FSplit (Some (FNode le (Some ld))) div)
    /\ elems_at le lo /\ elems_at he hi /\ lo ++ div :: hi = es1 ++ kv :: es2
    /\ (5 <= length lo)%nat /\ (5 <= length hi)%nat
    /\ kids_at ld nlo /\ kids_at hd nhi /\ nlo ++ nhi = ns1 ++ kid :: ns2
    /\ length nlo = (length lo + 1)%nat /\ length nhi = (length hi + 1)%nat.
Proof. exact (split_branch_l e d es1 es2 ns1 ns2 kid kv). Qed.

(** ** C44: calls of [next_back] on a new iterator yield the entries in ASCENDING order, on every map. *)
Theorem C44_next_back_ascends m l n : f_shows m l ->
  runs borrowed (fixed_iter m) (repeat Back n) (s_ends (repeat Front n) l)
  /\ forall un, runs (owning un) (fixed_into_iter un m) (repeat Back n) (s_ends (repeat Front n) l).
Proof.
  intros H. assert (E : map (fun _ => Front) (repeat Back n) = repeat Front n) by (induction n; cbn; congruence).
  rewrite <- E. apply (iter_back bor cmp); auto. apply Forall_forall. intros c Hc. now apply repeat_spec in Hc.
Qed.

(** ** C70: on maps whose arrays are as the types say and whose slots in use have values, [chk()]
    passes exactly if the map is well formed; hence after every history. *)
Theorem C70_chk_exact m :
  (f_typed m = true /\ f_chk bor cmp m = Ok tt) <-> exists l, f_shows m l.
Proof. exact (f_chk_exact bor cmp laws m). Qed.
Theorem C70_chk_history os : exists (m : f_map K V) rs,
  f_run bor cmp small_key f_new os = Ok (m, rs) /\ f_chk bor cmp m = Ok tt.
Proof.
  destruct (C42_history os) as (m & E & H). exists m. eexists. split; [exact E|].
  apply C70_chk_exact. eauto.
Qed.

(** ** C71: however [next] and [next_back] alternate, every entry is yielded exactly once, the
    length counts down by one, and nothing follows the last entry. *)
Theorem C71_any_ends m l cs : f_shows m l ->
  (exists p, Permutation p l /\ runs borrowed (fixed_iter m) cs (s_ends (repeat Front (length cs)) p))
  /\ forall un, exists p, Permutation p l
       /\ runs (owning un) (fixed_into_iter un m) cs (s_ends (repeat Front (length cs)) p).
Proof.
  assert (E : repeat Front (length cs) = map (fun _ => Front) cs) by (induction cs; cbn; congruence).
  rewrite E. exact (iter_any bor cmp m l cs).
Qed.

(** ** C72: an [into_iter()] dropped after any calls. The entries yielded, those dropped from
    the arrays and those below the dropped children are together the entries of the map
    when no node is shared; with shared nodes none is dropped or yielded twice. *)
Theorem C72_into_iter_drop m l cs : f_shows m l ->
  exists it rs it' es ns lk,
    fixed_into_iter (fun _ => true) m = Ok it /\ fi_run (owning (fun _ => true)) cs it = Ok (rs, it')
    /\ fi_drop (fi_work it') = Ok (es, ns) /\ hold_all ns lk /\ Permutation (got rs ++ es ++ lk) l.
Proof. intros H. exact (into_drop_owned bor cmp (fun _ => true) m l cs H (fun _ => eq_refl)). Qed.
Theorem C72_into_iter_drop_shared un m l cs : f_shows m l ->
  exists it rs it' es ns lk left,
    fixed_into_iter un m = Ok it /\ fi_run (owning un) cs it = Ok (rs, it')
    /\ fi_drop (fi_work it') = Ok (es, ns) /\ hold_all ns lk /\ Permutation (got rs ++ es ++ lk ++ left) l.
Proof. exact (into_drop bor cmp un m l cs). Qed.

(** ** C74: [iter_mut] hands out one reference per entry, in order by [next], each exactly once under any
    calls. Any number of writes through the references, in any order and after any others,
    changes exactly the values written to. *)
Theorem C74_iter_mut m l : f_shows m l ->
  exists refs : list (@fref K * V), map f_shown refs = l
    /\ (forall n, runs borrowed (fixed_iter_mut m) (repeat Front n) (s_ends (repeat Front n) refs))
    /\ (forall cs, exists p, Permutation p refs
          /\ runs borrowed (fixed_iter_mut m) cs (s_ends (repeat Front (length cs)) p))
    /\ forall ws, f_shows (f_writes refs ws m) (fold_left (fun l iw => upd_nth (fst iw) (snd iw) l) ws l).
Proof. exact (f_iter_mut_l bor cmp m l). Qed.

(** ** C75: the drop of a map drops each entry exactly once, in place, and reads no unwritten slot; with shared
    nodes it drops none twice. The clone of a node holds the same entries. *)
Theorem C75_drop m l : f_shows m l ->
  exists ds, f_drop (fun _ => true) (fm_root m) = Ok ds /\ Permutation ds l.
Proof.
  intros H. destruct (f_drop_l bor cmp (fun _ => true) m l H) as (ds & left & E & P & U).
  exists ds. split; [exact E|]. now rewrite U, app_nil_r in P.
Qed.
Theorem C75_drop_shared un m l : f_shows m l ->
  exists ds left, f_drop un (fm_root m) = Ok ds /\ Permutation (ds ++ left) l.
Proof. intros H. destruct (f_drop_l bor cmp un m l H) as (ds & left & E & P & _). eauto. Qed.
Theorem C75_clone lo h (n : fnode K V) l : holds lo h n l -> exists n', fn_clone n = Ok n' /\ holds lo h n' l.
Proof. exact (fn_clone_ok lo h n l). Qed.

(** ** C73: [NodeIntoIter::next_back] underflows on every leaf. *)
Theorem C73_into_next_back_underflows (e : elems K V) es o : elems_at e es -> es <> [] ->
  o = Owned (FNode e None) \/ o = Leased (FNode e None) ->
  exists i, no_new o = Ok i /\ forall un, na_next_back (owning un) i = Panic.
Proof.
  intros (_ & _ & L) N O. destruct es as [|x es]; [congruence|]. destruct e as [ks vs n]. cbn [el_len length] in L. subst n.
  destruct O as [->| ->]; (eexists; split; [reflexivity|]); intros un; reflexivity.
Qed.
End Fixed.

(** ** Examples for C42 *)
Example f100_shows : f_shows fkbor Z.compare f100 e100.
Proof.
  destruct (C42_from_iter fkbor Z.compare Zcmp_laws true e100) as (m & E & H).
  assert (E' : f_from_iter fkbor Z.compare true e100 = Ok f100) by (vm_compute; reflexivity).
  rewrite E in E'. injection E' as ->.
  assert (X : s_extend fkbor Z.compare [] e100 = e100) by (vm_compute; reflexivity). now rewrite X in H.
Qed.
(** [f_shows] directly: a root with one entry over two leaves of five and six. *)
Definition f12_leaf (l : list Z) : fnode fkey Z :=
  FNode (Elems (map (fun n => Some (n, 0)) l ++ repeat None (11 - length l))
               (map (fun n => Some (10 * n)) l ++ repeat None (11 - length l)) (length l)) None.
Example f12_shows : f_shows fkbor Z.compare (FMap (Some (FNode
    (Elems (Some (6, 0) :: repeat None 10) (Some 60 :: repeat None 10) 1)
    (Some (Kids (Some (f12_leaf [1; 2; 3; 4; 5]) :: Some (f12_leaf [7; 8; 9; 10; 11; 12]) :: repeat None 10) 2)))) 12) e12.
Proof.
  split; [repeat constructor|]. split; [reflexivity|]. exists 1%nat.
  apply (holds_branch 1 0 _ _ _ [fkv 6] [f12_leaf [1; 2; 3; 4; 5]; f12_leaf [7; 8; 9; 10; 11; 12]]
           [map fkv [1; 2; 3; 4; 5]; map fkv [7; 8; 9; 10; 11; 12]]); try (split; reflexivity); try (cbn; lia).
  constructor; [|constructor; [|constructor]].
  - apply (holds_leaf 5 _ _ (map fkv [1; 2; 3; 4; 5])); try (split; reflexivity). cbn. lia.
  - apply (holds_leaf 5 _ _ (map fkv [7; 8; 9; 10; 11; 12])); try (split; reflexivity). cbn. lia.
Qed.
Example f100_levels : exists e1 k1 e2 k2 e3, fm_root f100 = Some (FNode e1 (Some k1))
  /\ hd None (kd_ptrs k1) = Some (FNode e2 (Some k2)) /\ hd None (kd_ptrs k2) = Some (FNode e3 None).
Proof. vm_compute. repeat eexists. Qed.

Definition f_history : list (f_op fkey Z Z) :=
  [FoExtend e100; FoInsert (50, 1) 7; FoLen; FoRemove 3; FoRemove 3; FoGetMut 4 Z.opp; FoGet 4; FoRemove 42;
   FoGet 50; FoLen; FoClear; FoIsEmpty; FoInsert (1, 1) 1; FoGet 1].
Example C42_history_ex :
  (exists m, f_run fkbor Z.compare true f_new f_history
             = Ok (m, [FrUnit; FrVal (Some 500); FrLen 100; FrVal (Some 30); FrVal None; FrVal (Some 40); FrVal (Some (-40));
                       FrVal (Some 420); FrVal (Some 7); FrLen 98; FrUnit; FrBool true; FrVal None; FrVal (Some 1)]))
  /\ snd (s_f_run fkbor Z.compare [] f_history)
     = [FrUnit; FrVal (Some 500); FrLen 100; FrVal (Some 30); FrVal None; FrVal (Some 40); FrVal (Some (-40));
        FrVal (Some 420); FrVal (Some 7); FrLen 98; FrUnit; FrBool true; FrVal None; FrVal (Some 1)].
Proof. split; [eexists|]; vm_compute; reflexivity. Qed.
(** A remove that shrinks the tree by one level. *)
Example C42_remove_ex : exists m, f_remove fkbor Z.compare true f100 50 = Ok (m, Some 500)
  /\ f_shows fkbor Z.compare m (map fkv (zs 49 ++ map Z.of_nat (seq 51 50))).
Proof.
  destruct (C42_remove fkbor Z.compare Zcmp_laws true f100 e100 50 f100_shows) as (m & E & H). exists m. split; [exact E|].
  assert (X : s_remove fkbor Z.compare 50 e100 = map fkv (zs 49 ++ map Z.of_nat (seq 51 50))) by (vm_compute; reflexivity).
  now rewrite X in H.
Qed.
Example C42_insert_ex : exists m, f_insert fkbor Z.compare false f100 (50, 1) 7 = Ok (m, Some 500)
  /\ f_get fkbor Z.compare false m 50 = Ok (Some 7).
Proof. eexists. vm_compute. split; reflexivity. Qed.
Example C42_get_ex : f_get fkbor Z.compare true f100 77 = Ok (Some 770) /\ f_get fkbor Z.compare true f100 101 = Ok None.
Proof. vm_compute. auto. Qed.
Example C42_get_mut_ex : exists m, f_get_mut fkbor Z.compare true f100 77 Z.opp = Ok (m, Some 770)
  /\ f_get fkbor Z.compare true m 77 = Ok (Some (-770)).
Proof. eexists. vm_compute. split; reflexivity. Qed.
Example C42_len_ex : f_len f100 = 100%nat. Proof. reflexivity. Qed.
Example C42_from_iter_ex : s_extend fkbor Z.compare [] [fkv 3; fkv 1; ((3, 9), 5); fkv 2] = [fkv 1; fkv 2; ((3, 9), 5)]
  /\ exists m, f_from_iter fkbor Z.compare true [fkv 3; fkv 1; ((3, 9), 5); fkv 2] = Ok m /\ f_len m = 3%nat.
Proof. split; [reflexivity|]. eexists. vm_compute. split; reflexivity. Qed.
Example C42_extend_ex : exists m, f_extend fkbor Z.compare true f100 [fkv 500; ((7, 1), 8)] = Ok m /\ f_len m = 101%nat
  /\ f_get fkbor Z.compare true m 7 = Ok (Some 8).
Proof. eexists. vm_compute. repeat split. Qed.
Example C42_iter_ex : runs borrowed (fixed_iter f100) (repeat Front 101) (s_ends (repeat Front 101) e100)
  /\ got (s_ends (repeat Front 101) e100) = e100
  /\ runs (owning (fun n => Nat.even (fn_size n))) (fixed_into_iter (fun n => Nat.even (fn_size n)) f100)
          (repeat Front 3) [(Some (fkv 1), 99%nat); (Some (fkv 2), 98%nat); (Some (fkv 3), 97%nat)].
Proof.
  destruct (C42_iter fkbor Z.compare f100 e100 101 f100_shows) as [A _].
  destruct (C42_iter fkbor Z.compare f100 e100 3 f100_shows) as [_ B].
  split; [exact A|]. split; [vm_compute; reflexivity|]. exact (B _).
Qed.

(** ** Example for C43: the eleven entries are 1, 2, 3, 4, 6, ..., 12 and 5 is new. *)
Definition full11 : list Z := [1; 2; 3; 4; 6; 7; 8; 9; 10; 11; 12].
Example C43_split_leaf_ex : exists he le,
  ins_split (f12_leaf full11) 4 None (fkv 5) = Ok (FNode he None, FSplit (Some (FNode le None)) (fkv 6))
  /\ elems_at le (map fkv [1; 2; 3; 4; 5]) /\ elems_at he (map fkv [7; 8; 9; 10; 11; 12]).
Proof. eexists _, _. split; [vm_compute; reflexivity|]. split; (split; [split; reflexivity|split; [split; reflexivity|reflexivity]]). Qed.
Definition kid_of (n : Z) : fnode fkey Z := f12_leaf [n].
Example C43_split_branch_ex : exists he le hd ld,
  ins_split (FNode (fn_elems (f12_leaf full11)) (Some (Kids (map (fun n => Some (kid_of n)) (zs 12)) 12)))
            4 (Some (kid_of 99)) (fkv 5)
  = Ok (FNode he (Some hd), FSplit (Some (FNode le (Some ld))) (fkv 6))
  /\ kids_at ld (map kid_of [1; 2; 3; 4; 99; 5]) /\ kids_at hd (map kid_of [6; 7; 8; 9; 10; 11; 12]).
Proof. eexists _, _, _, _. split; [vm_compute; reflexivity|]. split; (split; [split; reflexivity|reflexivity]). Qed.

(** ** C44: so reverse iteration is not descending. *)
Theorem C44_reverse_refuted : exists (m : f_map fkey Z) l cs rs,
  f_from_iter fkbor Z.compare true l = Ok m /\ f_shows fkbor Z.compare m l
  /\ runs borrowed (fixed_iter m) cs rs /\ rs <> s_ends cs l.
Proof.
  exists f100, e100, [Back], [(Some (fkv 1), 99%nat)]. split; [vm_compute; reflexivity|]. split; [exact f100_shows|].
  split; [|vm_compute; congruence]. exact (proj1 (C44_next_back_ascends fkbor Z.compare f100 e100 1 f100_shows)).
Qed.
Example C44_ascends_ex : runs borrowed (fixed_iter f100) [Back; Back; Back]
  [(Some (fkv 1), 99%nat); (Some (fkv 2), 98%nat); (Some (fkv 3), 97%nat)].
Proof. exact (proj1 (C44_next_back_ascends fkbor Z.compare f100 e100 3 f100_shows)). Qed.
(** On every map with two entries the first answer is already wrong. *)
Theorem C44_always_wrong {K V Q} (bor : K -> Q) cmp (m : f_map K V) a b l : f_shows bor cmp m (a :: b :: l) ->
  order_laws cmp ->
  exists x n, runs borrowed (fixed_iter m) [Back] [(Some x, n)] /\ [(Some x, n)] <> s_ends [Back] (a :: b :: l).
Proof.
  intros H laws. exists a, (length (b :: l)). split; [exact (proj1 (C44_next_back_ascends bor cmp m _ 1 H))|].
  destruct H as (A & _). cbn [s_ends]. intros X. injection X as X _.
  assert (E : exists y, hd_error (rev (b :: l)) = Some y /\ In y (b :: l)).
  { destruct (rev (b :: l)) as [|y r] eqn:E.
    - apply (f_equal (@length _)) in E. rewrite rev_length in E. discriminate.
    - exists y. split; auto. apply in_rev. rewrite E. now left. }
  destruct E as (y & E & I). cbn [rev] in X, E. rewrite <- app_assoc in X.
  assert (Y : hd_error (rev (a :: b :: l)) = Some y).
  { cbn [rev]. destruct (rev l) as [|z r]; cbn in E |- *; auto. }
  cbn [rev] in Y. rewrite <- app_assoc in Y. rewrite Y in X. injection X as ->.
  inversion A as [|? ? _ F]; subst. rewrite Forall_forall in F. specialize (F y I).
  pose proof (cmp_refl laws (bor (fst y))). congruence.
Qed.
Example C44_always_wrong_ex : f_shows fkbor Z.compare f100 (fkv 1 :: fkv 2 :: map fkv (map Z.of_nat (seq 3 98))).
Proof. exact f100_shows. Qed.

(** ** Examples for C70-C73 *)
Example C70_chk_ex : f_typed f100 = true /\ f_chk fkbor Z.compare f100 = Ok tt
  /\ f_typed (FMap (fm_root f100) 99) = true /\ f_chk fkbor Z.compare (FMap (fm_root f100) 99) = Panic
  /\ f_typed (FMap (Some (f12_leaf [2; 1])) 2) = true /\ f_chk fkbor Z.compare (FMap (Some (f12_leaf [2; 1])) 2) = Panic.
Proof. vm_compute. auto 8. Qed.
Example C70_history_ex : exists m rs, f_run fkbor Z.compare true f_new f_history = Ok (m, rs) /\ f_chk fkbor Z.compare m = Ok tt.
Proof. exact (C70_chk_history fkbor Z.compare Zcmp_laws true f_history). Qed.
(** The order in which alternating calls find the entries is neither ascending nor from both ends. *)
Example C71_any_ends_ex : exists p, Permutation p e100
  /\ runs borrowed (fixed_iter f100) [Front; Back; Front; Back; Back; Front] (s_ends (repeat Front 6) p).
Proof. exact (proj1 (C71_any_ends fkbor Z.compare f100 e100 [Front; Back; Front; Back; Back; Front] f100_shows)). Qed.
Example C72_into_iter_drop_ex : exists it rs it' es ns lk,
  fixed_into_iter (fun _ => true) f100 = Ok it /\ fi_run (owning (fun _ => true)) (repeat Front 9) it = Ok (rs, it')
  /\ fi_drop (fi_work it') = Ok (es, ns) /\ hold_all ns lk /\ Permutation (got rs ++ es ++ lk) e100.
Proof. exact (C72_into_iter_drop fkbor Z.compare f100 e100 (repeat Front 9) f100_shows). Qed.
(** After nine calls 91 entries are left: ten in the arrays of the nodes in progress, the others
    in six subtrees not yet visited. *)
Example C72_concrete : exists it rs it' es ns,
  fixed_into_iter (fun _ => true) f100 = Ok it /\ fi_run (owning (fun _ => true)) (repeat Front 9) it = Ok (rs, it')
  /\ got rs = map fkv (zs 9) /\ fi_drop (fi_work it') = Ok (es, ns) /\ (length es, length ns) = (10, 6)%nat.
Proof. eexists _, _, _, _, _. vm_compute. do 4 (split; [reflexivity|]). reflexivity. Qed.
Theorem C73_into_next_back_refuted : exists (m : f_map fkey Z) l n i,
  f_shows fkbor Z.compare m l /\ l <> [] /\ fm_root m = Some n /\ no_new (Owned n) = Ok i
  /\ na_next_back (owning (fun _ => true)) i = Panic.
Proof.
  destruct (C42_from_iter fkbor Z.compare Zcmp_laws true [fkv 1; fkv 2]) as (m & E & H).
  exists m, [fkv 1; fkv 2]. vm_compute in E. injection E as <-. do 2 eexists.
  split; [exact H|]. split; [discriminate|]. split; [reflexivity|]. split; reflexivity.
Qed.
Example C74_iter_mut_ex : exists refs : list (@fref fkey * Z), map f_shown refs = e100
  /\ runs borrowed (fixed_iter_mut f100) (repeat Front 100) (s_ends (repeat Front 100) refs)
  /\ f_shows fkbor Z.compare (f_writes refs [(49%nat, Z.opp); (0%nat, Z.succ); (49%nat, Z.succ)] f100)
       (upd_nth 0 (fun _ => 11) (upd_nth 49 (fun _ => -499) e100)).
Proof.
  destruct (C74_iter_mut fkbor Z.compare f100 e100 f100_shows) as (refs & E & F & _ & W). exists refs.
  split; [exact E|]. split; [exact (F 100%nat)|]. exact (W [(49%nat, Z.opp); (0%nat, Z.succ); (49%nat, Z.succ)]).
Qed.
Example C75_drop_ex : exists ds, f_drop (fun _ => true) (fm_root f100) = Ok ds /\ Permutation ds e100 /\ hd_error ds <> Some (fkv 1).
Proof.
  destruct (C75_drop fkbor Z.compare f100 e100 f100_shows) as (ds & E & P). exists ds. split; [exact E|]. split; [exact P|].
  vm_compute in E. injection E as <-. cbn [hd_error]. unfold fkv. congruence.
Qed.
Example C75_clone_ex : exists h n n', fm_root f100 = Some n /\ holds 1 h n e100 /\ fn_clone n = Ok n' /\ holds 1 h n' e100.
Proof.
  destruct f100_shows as (_ & _ & h & H). exists h, (match fm_root f100 with Some n => n | None => fn_new end).
  destruct (C75_clone 1 h _ e100 H) as (n' & E & H'). exists n'. auto.
Qed.

(** ** C76: a panicking clone in [remove] breaks the map: the child [c] of the root [(e, d)] has been
    made too small, [merge_kids] unwinds, and a later [insert] panics. *)
Theorem C76_unwound_remove_refuted : exists (m : f_map fkey Z) l e d c c' o n q k v,
  f_shows fkbor Z.compare m l /\ fm_root m = Some (FNode e (Some d)) /\ fchild (Some d) 0 = Ok (Some c)
  /\ fn_remove fkbor Z.compare true q c = Ok (c', Some (o, true))
  /\ merge_unwound (FNode e (fput (Some d) 0 c')) 0 = Ok n
  /\ f_insert fkbor Z.compare true (FMap (Some n) (fm_len m)) k v = Panic.
Proof.
  destruct (C42_remove fkbor Z.compare Zcmp_laws true _ _ 12 f12_shows) as (m & E & H).
  eexists m, _. do 6 eexists. exists 3, (7, 1), 0. split; [exact H|]. vm_compute in E. injection E as <-.
  split; [reflexivity|]. split; [reflexivity|]. split; [vm_compute; reflexivity|]. split; [vm_compute; reflexivity|]. vm_compute. reflexivity.
Qed.

Print Assumptions C42_history.
Print Assumptions C42_insert.
Print Assumptions C42_remove.
Print Assumptions C42_get.
Print Assumptions C42_get_mut.
Print Assumptions C42_len.
Print Assumptions C42_from_iter.
Print Assumptions C42_extend.
Print Assumptions C42_iter.
Print Assumptions C43_split_leaf.
Print Assumptions C43_split_branch.
Print Assumptions C44_next_back_ascends.
Print Assumptions C70_chk_exact.
Print Assumptions C70_chk_history.
Print Assumptions C71_any_ends.
Print Assumptions C72_into_iter_drop.
Print Assumptions C72_into_iter_drop_shared.
Print Assumptions C73_into_next_back_underflows.
Print Assumptions C44_reverse_refuted.
Print Assumptions C44_always_wrong.
Print Assumptions C73_into_next_back_refuted.
Print Assumptions C74_iter_mut.
Print Assumptions C75_drop.
Print Assumptions C75_drop_shared.
Print Assumptions C75_clone.
Print Assumptions C76_unwound_remove_refuted.
