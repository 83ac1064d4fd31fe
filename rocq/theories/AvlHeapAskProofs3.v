(** The calls of AVL maps that share nodes, with comparisons that may answer anything and may panic. *)
From Coq Require Import List ZArith Bool Lia Permutation.
From Verif Require AvlProofs AvlProofs2.
From Verif Require Import Base Spec MapSpec Heap HeapProofs AvlModel AvlMapProofs Ask AskSpec AskAnySpec AskAnyProofs AvlAskModel AvlAskAnyProofs AnyOrdSpec AvlAnyProofs.
From Verif Require Import AvlHeapModel AvlHeapAskModel AvlHeapSpec AskHeapSpec AnyHeapSpec AvlHeapProofs AvlHeapProofs2 AvlHeapProofs3 AvlHeapProofs4
  AvlHeapAnyProofs AvlHeapAskProofs AvlHeapAskProofs2.
Import ListNotations.
Local Open Scope nat_scope.

Section AskMaps.
  Context {K V Q : Type} (bor : K -> Q) (ask : nat -> Q -> Q -> option comparison).
  Variable bomb : nat -> bool.
  Notation pay := (pay K V).
  Notation heap := (heap pay).
  Notation amap := (avl_map K V).
  Notation entry := (K * V)%type.
  Notation said := (said bor ask).
  Notation bombs := (bombs bomb).
  Notation reason n := (bombs \/ panicked ask n).

  (** [m] stands for a map with the entries [l]. *)
  Definition stands (h : heap) (m : hmap) (l : list entry) : Prop := exists a, mapped h m a /\ a_any a l.
  (** The outcome of a call on a map. *)
  Definition mslot_t {A} (O : list addr) (h : heap) (n : nat) (M : list pay -> Prop) (x : res (heap * hmap * nat * out A))
             (D : A -> nat -> heap -> hmap -> Prop) (U : nat -> heap -> hmap -> Prop) : Prop :=
    exists h' m' n' r cs, x = Ok (h', m', n', r) /\ sound h' (olist (hm_root m') ++ O) /\ frame O h h'
      /\ clones h' = cs ++ clones h /\ M cs /\ n <= n'
      /\ match r with Done a => D a n' h' m' | Unwound => U n' h' m' end.

  Lemma any_levels (a : amap) l : a_any a l -> small l -> levels (am_root a) < depth.
  Proof.
    intros H Sm. apply aany_iff in H as (A & E & _). apply low_levels, fits_low; auto. rewrite E. now apply small_fit.
  Qed.

  Lemma insert_t_m (h : heap) m a l k v n O : sound h (olist (hm_root m) ++ O) -> mapped h m a -> a_any a l -> small l ->
    mslot_t O h n (fun cs => sub cs (path_t bor ask n (am_root a) (bor k))) (hm_insert_t bor ask bomb h m k v n)
      (fun x n' h' m' => exists l', stands h' m' l' /\ may_insert bor (said n n') k v l l' x)
      (fun n' h' m' => mapped h' m' a /\ reason n').
  Proof.
    intros So [L D] Va Sm. pose proof (a_insert_copes bor ask a l k v n Va Sm) as C. unfold a_insert_t in C.
    destruct (ins_t_ok bor ask bomb (am_root a) depth h (hm_root m) k v n O So D (any_levels a l Va Sm))
      as (h1 & p1 & n1 & r1 & cs & E1 & So1 & F1 & C1 & Sb1 & R1).
    { intros X. rewrite X in C. exact C. }
    unfold hm_insert_t. rewrite E1. cbn [bind]. destruct r1 as [[old tl]|].
    - destruct R1 as (t' & Ei & D1 & _). rewrite Ei in C. destruct C as (Ln & l' & A' & I).
      eexists _, _, _, _, cs. split; [reflexivity|]. do 5 (split; [assumption|]).
      exists l'. split; auto. eexists. split; [|exact A']. split; auto. cbn. now rewrite L.
    - destruct R1 as (D1 & Ln & R1). eexists _, _, _, _, cs. split; [reflexivity|]. do 5 (split; [assumption|]).
      split; [split; auto|]. destruct R1 as [B|Ei]; [left; exact B|]. right. rewrite Ei in C. apply C.
  Qed.
  Lemma get_mut_t_m (h : heap) m a l q w n O : sound h (olist (hm_root m) ++ O) -> mapped h m a -> a_any a l -> small l ->
    mslot_t O h n (fun cs => sub cs (path_t bor ask n (am_root a) q)) (hm_get_mut_t bor ask bomb h m q w n)
      (fun x n' h' m' => exists l', stands h' m' l' /\ may_get_mut (said n n') q w l l' x)
      (fun n' h' m' => mapped h' m' a /\ reason n').
  Proof.
    intros So [L D] Va Sm. pose proof (a_get_mut_copes bor ask a l q w n Va) as C. unfold a_get_mut_t in C.
    destruct (get_mut_t_ok bor ask bomb (am_root a) depth h (hm_root m) q w n O So D (any_levels a l Va Sm))
      as (h1 & p1 & n1 & r1 & cs & E1 & So1 & F1 & C1 & Sb1 & R1).
    unfold hm_get_mut_t. rewrite E1. cbn [bind]. destruct r1 as [x|].
    - destruct R1 as (t' & Ei & D1). rewrite Ei in C. destruct C as (Ln & l' & A' & I).
      eexists _, _, _, _, cs. split; [reflexivity|]. do 5 (split; [assumption|]).
      exists l'. split; auto. eexists. split; [|exact A']. split; auto.
    - destruct R1 as (D1 & Ln & R1). eexists _, _, _, _, cs. split; [reflexivity|]. do 5 (split; [assumption|]).
      split; [split; auto|]. destruct R1 as [B|Ei]; [left; exact B|]. right. rewrite Ei in C. apply C.
  Qed.
  Lemma remove_t_m (h : heap) m a l q n O : sound h (olist (hm_root m) ++ O) -> mapped h m a -> a_any a l -> small l ->
    mslot_t O h n (fun cs => sub cs (near_t bor ask n (am_root a) q)) (hm_remove_entry_t bor ask bomb h m q n)
      (fun x n' h' m' => exists l', stands h' m' l' /\ may_remove (said n n') q l l' x)
      (fun n' h' m' => (mapped h' m' a /\ panicked ask n') \/ (left_of a h' m' /\ bombs)).
  Proof.
    intros So [L D] Va Sm. pose proof (a_remove_entry_copes bor ask a l q n Va Sm) as C. unfold a_remove_entry_t in C.
    destruct (rm_t_ok bor ask bomb (am_root a) depth h (hm_root m) q n O So D (any_levels a l Va Sm))
      as (h1 & p1 & n1 & r1 & cs & E1 & So1 & F1 & C1 & Sb1 & R1).
    { intros X. rewrite X in C. exact C. }
    unfold hm_remove_entry_t. rewrite E1. cbn [bind]. unfold hm_shrink. destruct r1 as [[kv s]|].
    - destruct R1 as (t' & Ei & D1 & Ln). rewrite Ei in C. cbn [after] in C. destruct kv as [e|].
      + rewrite L. destruct (usize_sub (am_len a) 1) as [y|]; [|destruct C]. cbn [bind asked plain] in *. destruct C as (_ & l' & A' & I).
        eexists _, _, _, _, cs. split; [reflexivity|]. do 5 (split; [assumption|]).
        exists l'. split; auto. eexists. split; [|exact A']. split; auto.
      + destruct C as (_ & l' & A' & I). cbn [asked bind].
        eexists _, _, _, _, cs. split; [reflexivity|]. do 5 (split; [assumption|]).
        exists l'. split; auto. eexists. split; [|exact A']. split; auto.
    - destruct R1 as (Ln & R1). cbn [asked bind]. eexists _, _, _, _, cs. split; [reflexivity|]. do 5 (split; [assumption|]).
      destruct R1 as [[B R]|[Ei D1]]; [right; split; [split; auto|exact B]|]. left. split; [split; auto|]. rewrite Ei in C. apply C.
  Qed.
  Lemma get_t_m (h : heap) m a l q n : mapped h m a -> a_any a l -> small l ->
    exists n' r, hm_get_key_value_t bor ask h m q n = Ok (n', r) /\ n <= n'
      /\ match r with Done x => forall e, x = Some e -> In e l /\ said n n' q e | Unwound => panicked ask n' end.
  Proof.
    intros M Va Sm. pose proof Va as Va0. apply aany_iff in Va0 as (A & El & _). unfold hm_get_key_value_t.
    rewrite (read_s h m a M A) by (unfold contents; rewrite El; now apply small_fit). cbn [bind].
    pose proof (t_get_copes bor ask (am_root a) q n) as C.
    destruct (t_get_t bor ask (am_root a) q n) as [s r n'|s n'|]; [| |destruct C]; eexists _, _; (split; [reflexivity|]).
    - destruct C as [Ln C]. split; auto. intros e ->. now rewrite <- El.
    - destruct C as (Ln & P & _). split; [lia|auto].
  Qed.
  Lemma extend_t_m ps : forall (h : heap) m a l n O, sound h (olist (hm_root m) ++ O) -> mapped h m a -> a_any a l ->
    (Z.of_nat (length l + length ps) < 2 ^ 63)%Z ->
    mslot_t O h n (fun _ => True) (hm_extend_t bor ask bomb h m ps n)
      (fun _ n' h' m' => exists l', stands h' m' l' /\ may_extend bor (said n n') ps l l')
      (fun n' h' m' => reason n' /\ exists done p rest l', ps = done ++ p :: rest /\ stands h' m' l'
         /\ may_extend bor (said n n') done l l').
  Proof.
    induction ps as [|[k v] ps IH]; intros h m a l n O So M Va Sm; cbn [hm_extend_t].
    - eexists _, _, _, _, []. split; [reflexivity|]. split; auto. split; [apply frame_refl|]. do 3 (split; auto).
      exists l. split; [exists a; auto|reflexivity].
    - assert (Sl : small l) by (unfold small; cbn [length] in Sm; lia).
      destruct (insert_t_m h m a l k v n O So M Va Sl) as (h1 & m1 & n1 & r1 & cs & E1 & So1 & F1 & C1 & _ & Ln & R1).
      rewrite E1. cbn [bind]. destruct r1 as [old|].
      + destruct R1 as (l1 & (a1 & M1 & A1) & I1).
        destruct (IH h1 m1 a1 l1 n1 O So1 M1 A1) as (h2 & m2 & n2 & r2 & cs2 & E2 & So2 & F2 & C2 & _ & Ln2 & R2).
        { pose proof (len_insert _ _ _ _ _ _ _ I1). cbn [length] in Sm. destruct old; lia. }
        exists h2, m2, n2, r2, (cs2 ++ cs). split; [exact E2|]. split; auto. split; [eapply frame_trans; eauto|].
        split; [rewrite C2, C1; apply app_assoc|]. split; auto. split; [lia|].
        assert (W1 : forall x (y : entry), said n n1 x y -> said n n2 x y) by (intros ? ?; apply said_mono; lia).
        assert (W2 : forall x (y : entry), said n1 n2 x y -> said n n2 x y) by (intros ? ?; apply said_mono; lia).
        destruct r2 as [u|].
        * destruct R2 as (l2 & St & X). exists l2. split; auto. cbn [may_extend]. exists l1, old.
          split; [eapply insert_mono; [|exact I1]; auto|eapply extend_mono; [|exact X]; auto].
        * destruct R2 as (Re & done & p & rest & l2 & -> & St & X). split; auto. exists ((k, v) :: done), p, rest, l2.
          split; auto. split; auto. cbn [may_extend]. exists l1, old.
          split; [eapply insert_mono; [|exact I1]; auto|eapply extend_mono; [|exact X]; auto].
      + destruct R1 as [M1 Re]. eexists _, _, _, _, cs. split; [reflexivity|]. do 3 (split; auto). do 2 (split; auto). split; auto.
        exists [], (k, v), ps, l. split; auto. split; [exists a; auto|reflexivity].
  Qed.

  Lemma merge_t_m keepl keepr dec (h : heap) m1 m2 a1 a2 l1 l2 n O :
    sound h (olist (hm_root m1) ++ olist (hm_root m2) ++ O) -> mapped h m1 a1 -> mapped h m2 a2 ->
    a_any a1 l1 -> a_any a2 l2 -> small l1 -> small l2 ->
    call_t O h (clones h) (h_merge_t bor ask bomb keepl keepr dec depth h (hm_root m1) (hm_root m2) n) olist
      (fun p n' h' => n <= n' /\ exists t only_a only_b both l, den h' p (tv t) /\ low t
         /\ may_pair bor (said n n') l1 l2 only_a only_b both
         /\ a_any (AvlMap (t_len t) t) l /\ Permutation l (merged keepl keepr dec only_a only_b both))
      (fun n' => n <= n' /\ reason n').
  Proof.
    intros So [L1 D1] [L2 D2] V1 V2 S1 S2.
    pose proof (a_merge_copes bor ask keepl keepr dec a1 a2 l1 l2 n V1 V2 S1 S2) as C.
    pose proof V1 as V1'. pose proof V2 as V2'. apply aany_iff in V1' as (A1 & E1 & _). apply aany_iff in V2' as (A2 & E2 & _).
    assert (Ft : AvlProofs2.fits (elems (am_root a1) ++ elems (am_root a2))) by (rewrite E1, E2; now apply small_fit2).
    destruct (merge_t_ok bor ask bomb keepl keepr dec (am_root a1) (am_root a2) depth h (hm_root m1) (hm_root m2) n O So D1 D2
                (any_levels a1 l1 V1 S1) A1 A2 Ft) as (h' & n' & r & cs & E & F & Cl & R).
    exists h', n', r, cs. do 3 (split; [assumption|]). destruct r as [p|].
    - destruct R as (So' & t' & Em & Dp). split; auto. destruct (merge_t_low bor ask _ _ _ _ _ _ _ _ A1 A2 Ft Em) as [Ln Lo].
      split; auto. rewrite Em in C. destruct C as (_ & oa & ob & both & l & P & A & X). exists t', oa, ob, both, l. auto.
    - destruct R as (So' & Ln & R). split; auto. split; auto. destruct R as [B|Em]; [left; exact B|]. right. rewrite Em in C. apply C.
  Qed.
  Lemma of_root_t_m keepl keepr dec (h : heap) m1 m2 a1 a2 l1 l2 n O :
    sound h (olist (hm_root m1) ++ olist (hm_root m2) ++ O) -> mapped h m1 a1 -> mapped h m2 a2 ->
    a_any a1 l1 -> a_any a2 l2 -> small l1 -> small l2 ->
    call_t O h (clones h) (hm_of_root_t (h_merge_t bor ask bomb keepl keepr dec depth h (hm_root m1) (hm_root m2) n)) (fun m => olist (hm_root m))
      (fun m n' h' => n <= n' /\ exists only_a only_b both l, may_pair bor (said n n') l1 l2 only_a only_b both
         /\ stands h' m l /\ Permutation l (merged keepl keepr dec only_a only_b both))
      (fun n' => n <= n' /\ reason n').
  Proof.
    intros So M1 M2 V1 V2 S1 S2.
    destruct (merge_t_m keepl keepr dec h m1 m2 a1 a2 l1 l2 n O So M1 M2 V1 V2 S1 S2) as (h' & n' & r & cs & E & F & Cl & R).
    unfold hm_of_root_t. rewrite E. cbn [bind]. destruct r as [p|].
    - destruct R as (So' & Ln & t & oa & ob & both & l & Dp & Lo & P & A & X). rewrite (h_len_ok _ _ t) by auto. cbn [bind].
      eexists h', n', _, cs. split; [reflexivity|]. do 2 (split; [assumption|]). split; [exact So'|]. split; auto.
      exists oa, ob, both, l. split; auto. split; auto. eexists. split; [|exact A]. split; auto.
    - exists h', n', Unwound, cs. split; [reflexivity|]. auto.
  Qed.
  Lemma append_t_m (h : heap) m1 m2 a1 a2 l1 l2 n O :
    sound h (olist (hm_root m1) ++ olist (hm_root m2) ++ O) -> mapped h m1 a1 -> mapped h m2 a2 ->
    a_any a1 l1 -> a_any a2 l2 -> small l1 -> small l2 ->
    exists h' m1' m2' n' r cs, hm_append_t bor ask bomb h m1 m2 n = Ok (h', m1', m2', n', r)
      /\ frame O h h' /\ clones h' = cs ++ clones h
      /\ sound h' (olist (hm_root m1') ++ olist (hm_root m2') ++ O) /\ n <= n'
      /\ match r with
         | Done _ => m2' = hm_new /\ exists only_a only_b both l, may_pair bor (said n n') l1 l2 only_a only_b both
             /\ stands h' m1' l /\ Permutation l (only_a ++ l2)
         | Unwound => m1' = HMap (hm_len m1) None /\ m2' = HMap (hm_len m2) None /\ reason n'
         end.
  Proof.
    intros So M1 M2 V1 V2 S1 S2.
    destruct (merge_t_m true true (fun _ rhs => Some rhs) h m1 m2 a1 a2 l1 l2 n O So M1 M2 V1 V2 S1 S2) as (h' & n' & r & cs & E & F & Cl & R).
    unfold hm_append_t, h_union_t. rewrite E. cbn [bind]. destruct r as [p|].
    - destruct R as (So' & Ln & t & oa & ob & both & l & Dp & Lo & P & A & X). rewrite (h_len_ok _ _ t) by auto. cbn [bind].
      eexists h', _, _, n', _, cs. split; [reflexivity|]. do 2 (split; [assumption|]). split; [exact So'|]. split; auto.
      split; auto. exists oa, ob, both, l. split; auto. split; [eexists; split; [|exact A]; split; auto|].
      rewrite X. unfold merged. rewrite flat_one. apply Permutation_app_head. symmetry. apply P.
    - destruct R as (So' & Ln & Re). eexists h', _, _, n', _, cs. split; [reflexivity|]. do 2 (split; [assumption|]). split; [exact So'|].
      split; auto.
  Qed.
End AskMaps.
