(** Any comparison: iteration, drops, histories, and the calls of the B-tree map that iterate. *)
From Coq Require Import List PeanoNat ZArith Bool Lia Permutation.
From Verif Require Import Base Spec MapSpec SpecFacts Vec AvlModel AvlProofs AvlMapProofs AvlIterModel AvlIterProofs
  BTreeModel BTreeProofs BTreeProofs2 BTreeIterModel BTreeIterProofs BTreeIterProofs2 BTreeShows AvlHistModel BTreeHistModel
  FixedModel FixedSpec FixedIterModel FixedShows FixedIterShows FixedDropProofs AnyOrdSpec BTreeAnyProofs FixedAnyProofs AvlAnyProofs.
Import ListNotations.
Local Open Scope nat_scope.

Section Glue.
  Context {K V Q : Type} (bor : K -> Q) (cmp : Q -> Q -> comparison).
  Notation entry := (K * V)%type.
  Notation nob := (fun _ : K => tt).
  Notation noc := (fun _ _ : unit => Lt).

  (** ** The usual views are these with an ascending list. *)
  Lemma f_shows_any (m : f_map K V) l : FixedSpec.f_shows bor cmp m l <-> f_any m l /\ ascending bor cmp l.
  Proof. unfold FixedSpec.f_shows, f_any. tauto. Qed.
  Lemma well_formed_any N (m : bt_map K V) l : well_formed bor cmp N m l <-> b_any N m l /\ ascending bor cmp l.
  Proof. unfold well_formed, b_any. tauto. Qed.

  (** ** AVL *)
  Lemma a_iter_any (m : avl_map K V) l cs : a_any m l -> run_ends norm_destr norm_size cs (avl_iter m) = Ok (s_ends cs l).
  Proof.
    intros H. apply aany_iff in H as (A & <- & L). apply (iter_spec nob noc). split; auto. split; auto. apply sorted_any.
  Qed.

  Lemma a_or_insert_any (m : avl_map K V) l k v w : a_any m l -> small l ->
    exists m1 l1, a_any m1 l1 /\ (l1 = l /\ m1 = m \/ exists r, avl_insert bor cmp m k v = Ok (m1, r) /\ any_insert bor cmp k v l l1 r)
      /\ match entry_or_insert bor cmp m k v w with
         | Ok (m', x) => exists l', a_any m' l' /\ any_get_mut bor cmp (bor k) w l1 l' (Some x)
         | Panic => snd (avl_get_mut bor cmp m1 (bor k) w) = None
         end.
  Proof.
    intros H Hs. unfold entry_or_insert, entry_or_insert_with.
    assert (Fin : forall m1 l1, a_any m1 l1 -> match '(m', _, x) <- (let '(m2, o) := avl_get_mut bor cmp m1 (bor k) w in v <- unwrap o;; Ok (m2, tt, v));; Ok (m', x) with
      | Ok (m', x) => exists l', a_any m' l' /\ any_get_mut bor cmp (bor k) w l1 l' (Some x)
      | Panic => snd (avl_get_mut bor cmp m1 (bor k) w) = None end).
    { intros m1 l1 H1. destruct (a_get_mut_any bor cmp m1 l1 (bor k) w H1) as (m2 & r & l2 & E & H2 & X). rewrite E.
      destruct r as [x|]; cbn [unwrap bind]; [eauto|reflexivity]. }
    destruct (negb (avl_contains_key bor cmp m (bor k))).
    - destruct (a_insert_any bor cmp m l k v H Hs) as (m1 & r & l1 & E & H1 & X). exists m1, l1. split; auto. split; [right; eauto|]. rewrite E. cbn [bind]. now apply Fin.
    - exists m, l. split; auto. split; [auto|]. cbn [bind]. now apply Fin.
  Qed.

  (** ** B-tree *)
  Section BTree.
    Context (N : nat) (HN : 1 <= N) (un : bt K V -> bool).
    Lemma any_valid (m : bt_map K V) l : b_any N m l -> BTreeProofs2.valid nob noc N m /\ BTreeProofs2.contents m = l.
    Proof.
      intros H. apply any_iff in H as (L & R). unfold BTreeProofs2.valid, BTreeProofs2.contents. destruct (bm_root m) as [t|].
      - destruct R as (h & S & <-). split; auto. split; [apply sorted_any|]. eauto.
      - subst l. split; auto. split; [apply sorted_any|]. auto.
    Qed.
    Lemma b_iter_any (m : bt_map K V) l cs : b_any N m l ->
      b_run_ends BTreeIterModel.borrowed cs (bt_iter m) = Ok (s_ends cs l) /\ b_run_ends (BTreeIterModel.owning un) cs (bt_into_iter un m) = Ok (s_ends cs l).
    Proof.
      intros H. apply any_valid in H as [Hv <-]. split; [now apply (iter_run nob noc N HN)|now apply (into_run nob noc N HN)].
    Qed.
    Lemma b_list_any (m : bt_map K V) l : b_any N m l -> b_into_list un m = Ok l.
    Proof. intros H. apply any_valid in H as [Hv <-]. now apply (into_list_ok nob noc N HN). Qed.
    Lemma b_new_any : b_any N (@b_new K V) [].
    Proof. split; reflexivity. Qed.
    Lemma b_append_any (a b : bt_map K V) la lb : b_any N a la -> b_any N b lb ->
      exists a' l', b_append bor cmp N un a b = Ok (a', b_new) /\ b_any N a' l' /\ any_extend bor cmp lb la l'.
    Proof.
      intros Ha Hb. unfold b_append. rewrite (b_list_any b lb Hb). cbn [bind].
      destruct (b_extend_any bor cmp N HN lb a la Ha) as (a' & l' & -> & H & X). cbn [bind]. eauto.
    Qed.
    Lemma retain_runs {S} (f : S -> K -> V -> S * V * bool) l : forall s,
      retain_list f s l = (kept (fst (run_calls f s l)), snd (run_calls f s l)).
    Proof.
      induction l as [|[k v] l IH]; intros s; cbn [retain_list run_calls]; auto. destruct (f s k v) as [[s1 v1] b]. rewrite IH.
      destruct (run_calls f s1 l) as [o s2]. cbn. now destruct b.
    Qed.
    Lemma b_retain_any {S} (f : S -> K -> V -> S * V * bool) (m : bt_map K V) l s : b_any N m l ->
      exists m' l' s' outs, b_retain bor cmp N un f m s = Ok (m', s') /\ b_any N m' l'
        /\ run_calls f s l = (outs, s') /\ any_extend bor cmp (kept outs) [] l'.
    Proof.
      intros H. unfold b_retain. rewrite (b_list_any m l H). cbn [bind]. rewrite retain_runs. destruct (run_calls f s l) as [outs s'] eqn:E. cbn [fst snd].
      unfold b_from_iter. destruct (b_extend_any bor cmp N HN (kept outs) b_new [] b_new_any) as (m' & l' & -> & H' & X). cbn [bind].
      exists m', l', s', outs. auto.
    Qed.
    Lemma b_split_off_any (m : bt_map K V) l q : b_any N m l ->
      exists m1 m2 l1 l2, b_split_off bor cmp N un m q = Ok (m1, m2) /\ b_any N m1 l1 /\ b_any N m2 l2
        /\ any_extend bor cmp (filter (fun e => match cmp q (bor (fst e)) with Gt => true | _ => false end) l) [] l1
        /\ any_extend bor cmp (filter (fun e => match cmp q (bor (fst e)) with Gt => false | _ => true end) l) [] l2.
    Proof.
      intros H. unfold b_split_off. rewrite (b_list_any m l H). cbn [bind]. unfold b_from_iter.
      destruct (b_extend_any bor cmp N HN (filter (fun e => match cmp q (bor (fst e)) with Gt => true | _ => false end) l) b_new [] b_new_any) as (m1 & l1 & -> & H1 & X1).
      cbn [bind]. rewrite (filter_ext _ (fun e : entry => match cmp q (bor (fst e)) with Gt => false | _ => true end)) by (intros e; now destruct (cmp q (bor (fst e)))).
      destruct (b_extend_any bor cmp N HN (filter (fun e => match cmp q (bor (fst e)) with Gt => false | _ => true end) l) b_new [] b_new_any) as (m2 & l2 & -> & H2 & X2).
      cbn [bind]. exists m1, m2, l1, l2. auto.
    Qed.
    Lemma b_or_insert_any (m : bt_map K V) l k v w : b_any N m l ->
      exists m1 l1, b_any N m1 l1 /\ (l1 = l /\ m1 = m \/ exists r, b_insert bor cmp N m k v = Ok (m1, r) /\ any_insert bor cmp k v l l1 r)
        /\ match b_or_insert bor cmp N m k v w with
           | Ok (m', x) => exists l', b_any N m' l' /\ any_get_mut bor cmp (bor k) w l1 l' (Some x)
           | Panic => snd (b_get_mut bor cmp m1 (bor k) w) = None
           end.
    Proof.
      clear un. intros H. unfold b_or_insert, b_or_insert_with.
      assert (Fin : forall m1 l1, b_any N m1 l1 -> match '(m', _, x) <- (let '(m2, o) := b_get_mut bor cmp m1 (bor k) w in v <- unwrap o;; Ok (m2, tt, v));; Ok (m', x) with
        | Ok (m', x) => exists l', b_any N m' l' /\ any_get_mut bor cmp (bor k) w l1 l' (Some x)
        | Panic => snd (b_get_mut bor cmp m1 (bor k) w) = None end).
      { intros m1 l1 H1. destruct (b_get_mut_any bor cmp N HN m1 l1 (bor k) w H1) as (m2 & r & l2 & E & H2 & X). rewrite E.
        destruct r as [x|]; cbn [unwrap bind]; [eauto|reflexivity]. }
      destruct (negb (b_contains_key bor cmp m (bor k))).
      - destruct (b_insert_any bor cmp N HN m l k v H) as (m1 & r & l1 & E & H1 & X). exists m1, l1. split; auto. split; [right; eauto|]. rewrite E. cbn [bind]. now apply Fin.
      - exists m, l. split; auto. split; [auto|]. cbn [bind]. now apply Fin.
    Qed.
  End BTree.

  (** ** The array-based map *)
  Lemma f_iter_any (m : f_map K V) l n : f_any m l ->
    runs FixedIterModel.borrowed (fixed_iter m) (repeat Front n) (s_ends (repeat Front n) l)
    /\ forall un, runs (FixedIterModel.owning un) (fixed_into_iter un m) (repeat Front n) (s_ends (repeat Front n) l).
  Proof.
    intros H. apply (iter_front nob noc).
    - destruct H as [L R]. split; [apply sorted_any|]. auto.
    - apply Forall_forall. intros c Hc. now apply repeat_spec in Hc.
  Qed.
  Lemma f_drop_any un (m : f_map K V) l : f_any m l ->
    exists ds left, f_drop un (fm_root m) = Ok ds /\ Permutation (ds ++ left) l /\ ((forall n, un n = true) -> left = []).
  Proof.
    intros [L R]. destruct (f_drop_l nob noc un m l) as (ds & left & E & P & U); [split; [apply sorted_any|]; auto|]. eauto.
  Qed.
End Glue.

Section Hist.
  Context {K V Q : Type} (bor : K -> Q) (small_key : bool).
  Lemma f_step_any cmp (m : f_map K V) l (o : f_op K V Q) : f_any m l ->
    exists m' r l', f_step bor cmp small_key m o = Ok (m', r) /\ f_any m' l' /\ any_step bor cmp o l l' r.
  Proof.
    intros H. destruct o; cbn [f_step any_step].
    - destruct (f_insert_any bor cmp small_key m l k v H) as (m' & r & l' & -> & X). eexists _, _, l'. cbn [bind]. split; [reflexivity|]. exact X.
    - destruct (f_remove_any bor cmp small_key m l q H) as (m' & r & l' & -> & X). eexists _, _, l'. cbn [bind]. split; [reflexivity|]. exact X.
    - destruct (f_get_any bor cmp small_key m l q H) as (r & -> & X). eexists _, _, l. cbn [bind]. split; [reflexivity|]. auto.
    - destruct (f_get_mut_any bor cmp small_key m l q w H) as (m' & r & l' & -> & X). eexists _, _, l'. cbn [bind]. split; [reflexivity|]. exact X.
    - eexists _, _, l. split; [reflexivity|]. destruct H as [L R]. split; [now split|]. auto.
    - eexists _, _, l. split; [reflexivity|]. destruct H as [L R]. split; [now split|]. split; auto. unfold f_is_empty. now rewrite L.
    - eexists _, _, []. split; [reflexivity|]. split; [split; reflexivity|auto].
    - destruct (f_extend_any bor cmp small_key ps m l H) as (m' & l' & -> & X). eexists _, _, l'. cbn [bind]. split; [reflexivity|]. exact X.
  Qed.
  Lemma f_calls_any os : forall (m : f_map K V) l, f_any m l ->
    exists m' rs l', f_calls bor small_key m os = Ok (m', rs) /\ f_any m' l' /\ any_calls bor os l l' rs.
  Proof.
    induction os as [|[cmp o] os IH]; intros m l H; cbn [f_calls].
    - exists m, [], l. cbn. auto.
    - destruct (f_step_any cmp m l o H) as (m1 & r & l1 & -> & H1 & X). cbn [bind].
      destruct (IH m1 l1 H1) as (m' & rs & l' & -> & H' & Y). cbn [bind]. exists m', (r :: rs), l'. split; auto. split; auto. cbn. eauto.
  Qed.
End Hist.
