(** [range] and [range_mut] of the B-tree map when the key type's [Ord] is no order (property C129): [cmp] is any function.

    [b_any N m l] (AnyOrdSpec.v): [m] has the shape that its type demands, its entries from left to right are [l], and
    [len] is their number. [told_part], [told_crossed], [told_gap]: BAnyRangeSpec.v. *)
From Coq Require Import List ZArith Bool Lia.
From Verif Require Import Base Spec MapSpec BTreeSpec BTreeModel BTreeIterModel BTreeMutProofs BTreeShows AvlHeapSpec AnyOrdSpec BAnyRangeSpec
  BTreeAnyRange.
Import ListNotations.
Open Scope Z_scope.

(** ** C129 *)
(** [range] panics only if the comparison of its bounds says that they are the wrong way round (then it always does), or
    if an entry is told to equal an excluded lower bound and not to be below the upper one. Otherwise [next] and
    [next_back], in any order, give some of the entries [l'], from its ends, and [size_hint] brackets what is left. *)
Theorem C129_range : forall K V Q (bor : K -> Q) cmp N, (1 <= N)%nat -> forall (m : bt_map K V) l lo hi, b_any N m l ->
  match b_range bor cmp m lo hi with
  | Ok it => ~ told_crossed cmp lo hi /\ exists l', told_part bor cmp lo hi l l'
      /\ (fst (b_range_hint N it) <= length l' <= snd (b_range_hint N it))%nat
      /\ forall cs, exists outs, b_range_calls N cs it = Ok outs
         /\ Forall2 (fun o s => fst o = fst s /\ (fst (snd o) <= snd s <= snd (snd o))%nat) outs (s_ends cs l')
  | Panic => told_crossed cmp lo hi \/ told_gap bor cmp lo hi l
  end.
Proof. exact @b_range_any. Qed.
Print Assumptions C129_range.
(** The references of [range_mut] are to different entries: writes through them, in any order, change the values of their
    entries and nothing else. *)
Theorem C129_range_mut : forall K V Q (bor : K -> Q) cmp N, (1 <= N)%nat -> forall (m : bt_map K V) l lo hi, b_any N m l ->
  match b_range_mut bor cmp m lo hi with
  | Ok it => ~ told_crossed cmp lo hi /\ exists refs refs', map shown refs = l
      /\ told_part (fun r => bor (snd r)) cmp lo hi refs refs'
      /\ (fst (b_range_hint N it) <= length refs' <= snd (b_range_hint N it))%nat
      /\ (forall cs, exists outs, b_range_calls N cs it = Ok outs
         /\ Forall2 (fun o s => fst o = fst s /\ (fst (snd o) <= snd s <= snd (snd o))%nat) outs (s_ends cs refs'))
      /\ forall ws, b_any N (writes refs ws m) (fold_left (fun l iw => upd_nth (fst iw) (snd iw) l) ws l)
  | Panic => told_crossed cmp lo hi \/ told_gap bor cmp lo hi l
  end.
Proof. exact @b_range_mut_any. Qed.
Print Assumptions C129_range_mut.

(** A map of the entries 1 to 7; its root has the keys 2 and 4. *)
Definition rid (k : Z) : Z := k.
Definition rent (n : Z) : Z * Z := (n, 10 * n).
Definition r7 : bt_map Z Z := BMap 7 (Some (BN [rent 2; rent 4] [BN [rent 1] []; BN [rent 3] []; BN [rent 5; rent 6; rent 7] []])).
Example r7_any : b_any 1 r7 (map rent [1; 2; 3; 4; 5; 6; 7]).
Proof.
  split; [reflexivity|]. exists 1%nat.
  change (map rent [1; 2; 3; 4; 5; 6; 7]) with ([rent 1] ++ rent 2 :: ([rent 3] ++ rent 4 :: [rent 5; rent 6; rent 7])).
  unfold r7, bm_root. apply eo_branch; [cbn; lia|].
  apply il_cons; [apply eo_leaf; cbn; lia|]. apply il_cons; [apply eo_leaf; cbn; lia|]. apply il_last, eo_leaf; cbn; lia.
Qed.
(** A comparison that is wrong about one pair. *)
Definition wrong (a b : Z) (c : comparison) (x y : Z) : comparison := if (x =? a) && (y =? b) then c else x ?= y.
Definition items (r : res (b_iter (erg Z Z))) : option (list (option (Z * Z))) :=
  match r with
  | Ok it => match b_range_calls 1 [Front; Back; Front; Front; Front; Front; Front; Front] it with Ok o => Some (map fst o) | Panic => None end
  | Panic => None
  end.
(** 4 is told to be greater than 5, so the range from 4 to 6 leaves 5 out: what it gives is no piece of the map. *)
Example C129_ex : items (b_range rid (wrong 4 5 Gt) r7 (Included 4) (Included 6))
  = Some [Some (4, 40); Some (6, 60); None; None; None; None; None; None].
Proof. vm_compute. reflexivity. Qed.
Example C129_ex_order : items (b_range rid Z.compare r7 (Included 4) (Included 6))
  = Some [Some (4, 40); Some (6, 60); Some (5, 50); None; None; None; None; None].
Proof. vm_compute. reflexivity. Qed.
(** The panics: bounds told to be the wrong way round (first and third), and an entry told to equal the excluded lower
    bound and not to be below the upper one (second). *)
Example C129_ex_panics : b_range rid (wrong 6 3 Lt) r7 (Included 3) (Included 6) = Panic
  /\ b_range rid (wrong 6 4 Eq) r7 (Excluded 4) (Excluded 6) = Panic
  /\ b_range rid (wrong 6 4 Lt) r7 (Excluded 4) (Included 6) = Panic
  /\ ~ told_crossed (wrong 6 4 Eq) (Excluded 4) (Excluded 6) /\ told_crossed (wrong 6 3 Lt) (Included 3) (Included 6)
  /\ told_gap rid (wrong 6 4 Eq) (Excluded 4) (Excluded 6) (map rent [1; 2; 3; 4; 5; 6; 7]).
Proof.
  do 3 (split; [vm_compute; reflexivity|]). split; [vm_compute; discriminate|]. split; [vm_compute; reflexivity|].
  exists (rent 4). split; [cbn; auto 7|]. vm_compute. split; [reflexivity|discriminate].
Qed.
(** All entries are told to be inside: all are given. *)
Example C129_ex_all : (forall e, In e (map rent [1; 2; 3; 4; 5; 6; 7]) -> told_within rid (fun a b => b ?= a) (Included 100) (Excluded 0) e)
  /\ items (b_range rid (fun a b => b ?= a) r7 (Included 100) (Excluded 0))
     = Some (map Some (map rent [1; 7; 2; 3; 4; 5; 6]) ++ [None]).
Proof.
  split; [|vm_compute; reflexivity]. intros e He. unfold told_within, rid.
  apply in_map_iff in He as (n & <- & He). cbn [rent fst]. cbn in He.
  repeat (destruct He as [<-|He]; [vm_compute; auto|]). contradiction.
Qed.
(** A write through the second reference that [range_mut] gives. *)
Example C129_mut_ex : exists refs refs' r it, b_range_mut rid (wrong 4 5 Gt) r7 (Included 4) (Included 6) = Ok it
  /\ map shown refs = map rent [1; 2; 3; 4; 5; 6; 7] /\ map shown refs' = [rent 4; rent 6]
  /\ nth_error refs 5 = Some r /\ shown r = rent 6
  /\ b_any 1 (writes refs [(5%nat, Z.succ)] r7) (map rent [1; 2; 3; 4; 5] ++ [(6, 61); rent 7]).
Proof.
  pose proof (C129_range_mut _ _ _ rid (wrong 4 5 Gt) 1%nat (le_n 1) r7 _ (Included 4) (Included 6) r7_any) as H.
  destruct (b_range_mut rid (wrong 4 5 Gt) r7 (Included 4) (Included 6)) as [it|] eqn:E; [|vm_compute in E; discriminate].
  destruct H as (_ & refs & refs' & Hr & _ & _ & Hc & Hw).
  destruct (Hc [Front; Front; Front]) as (outs & Eo & F). vm_compute in E. injection E as <-. vm_compute in Eo. injection Eo as <-.
  specialize (Hw [(5%nat, Z.succ)]).
  exists refs, refs'. do 8 (destruct refs as [|? refs]; try discriminate). cbn [nth_error]. eexists _, _. split; [reflexivity|].
  split; [exact Hr|]. split.
  - destruct refs' as [|x [|y [|z refs']]]; cbn [s_ends tl hd_error] in F;
      repeat match goal with X : Forall2 _ _ _ |- _ => inversion X; subst; clear X end; cbn [fst] in *;
      repeat match goal with X : _ /\ _ |- _ => destruct X end; try discriminate.
    repeat match goal with X : Some _ = Some _ |- _ => injection X as X; subst end. reflexivity.
  - split; [reflexivity|]. split; [|exact Hw]. exact (f_equal (fun l => nth 5 l (rent 0)) Hr).
Qed.
