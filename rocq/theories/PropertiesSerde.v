(** Theorems about serialisation (properties C53-C56).

    [Access items e] is what a data format offers while a map is read: the entries [items], then
    the end ([e = None]) or an error. [hint] is the size hint of the format, which need not have
    to do with [items]. [debug]: the build checks overflow and [debug_assert!]. [shows], [b_shows]:
    the map passes its own [check()] and [iter()] yields the list. [s_extend bor cmp [] items]
    (MapSpec.v): the entries inserted one by one into an empty map. *)
From Coq Require Import List NArith ZArith Bool.
From Verif Require Import Base Spec MapSpec SpecFacts Vec AvlModel AvlIterModel AvlShows BTreeModel BTreeIterModel BTreeShows
  SerdeModel SerdeProofs SerdeAvlProofs SerdeBTreeProofs.
Import ListNotations.
Local Open Scope Z_scope.

(** The size hint is absent or smaller than [usize::MAX]. *)
Definition hint_fine (hint : option N) : Prop :=
  match hint with Some n => (n < 2 ^ 64 - 1)%N | None => True end.

(** ** Sample data: keys are pairs compared by their first component only. *)
Definition skey : Type := (Z * Z)%type.
Definition sbor (k : skey) : Z := fst k.
Definition skv (n : Z) : skey * Z := ((n, 0), 10 * n).
(** Unsorted, with a repeated key. *)
Definition messy : list (skey * Z) := map skv [5; 2; 8; 1] ++ [((2, 7), 9)] ++ map skv [6; 3].
Definition tidied : list (skey * Z) := [skv 1; ((2, 7), 9); skv 3; skv 5; skv 6; skv 8].
Definition s9 : list (skey * Z) := map skv [1; 2; 3; 4; 5; 6; 7; 8; 9].
Definition aforce (r : res (avl_map skey Z)) : avl_map skey Z := match r with Ok m => m | Panic => avl_new end.
Definition sforce (r : res (bt_map skey Z)) : bt_map skey Z := match r with Ok m => m | Panic => b_new end.
Definition a9 := Eval vm_compute in aforce (avl_from_iter sbor Z.compare s9).
Definition t9 := Eval vm_compute in sforce (b_from_iter sbor Z.compare 1 s9).
Example a9_shows : shows sbor Z.compare a9 s9. Proof. split; reflexivity. Qed.
Example t9_shows : b_shows sbor Z.compare 1 t9 s9. Proof. repeat split. Qed.

(** ** C54: deserialising an [AvlMap] gives the same map as inserting the entries in turn, for
    every size hint and every order of the entries. *)
Theorem C54_deserialize : forall K V Q (bor : K -> Q) cmp, order_laws cmp ->
  forall E debug hint (items : list (K * V)) (e : option E), hint_fine hint -> small items ->
  match e with
  | None => exists m, avl_deserialize bor cmp debug hint (Access items e) = Ok (inl m)
                      /\ shows bor cmp m (s_extend bor cmp [] items)
  | Some x => avl_deserialize bor cmp debug hint (Access items e) = Ok (inr x)
  end.
Proof.
  intros K V Q bor cmp laws E debug hint items e Hh Hs.
  destruct (visit_ok (avl_impl bor cmp) _ _ _ _ (avl_visitor_ok bor cmp laws) debug hint items e Hh Hs) as (r & Er & X).
  unfold avl_deserialize. rewrite Er. destruct r as [m|x].
  - destruct X as [-> X]. exists m. auto.
  - now subst e.
Qed.
Print Assumptions C54_deserialize.
(** Twenty entries were announced, seven unsorted ones came. *)
Example C54_ex : exists m, avl_deserialize (E := Z) sbor Z.compare true (Some 20%N) (Access messy None) = Ok (inl m)
  /\ shows sbor Z.compare m tidied.
Proof. exact (C54_deserialize _ _ _ sbor _ Zcmp_laws Z true (Some 20%N) messy None eq_refl eq_refl). Qed.
Example C54_ex' : exists m, avl_deserialize (E := Z) sbor Z.compare true (Some 4%N) (Access messy None) = Ok (inl m)
  /\ shows sbor Z.compare m tidied.
Proof. exact (C54_deserialize _ _ _ sbor _ Zcmp_laws Z true (Some 4%N) messy None eq_refl eq_refl). Qed.
Example C54_ex'' : avl_deserialize sbor Z.compare false (Some 9%N) (Access messy (Some 77)) = Ok (inr 77).
Proof. exact (C54_deserialize _ _ _ sbor _ Zcmp_laws Z false (Some 9%N) messy (Some 77) eq_refl eq_refl). Qed.

(** ** C55: the same of a [BTreeMap] with [N >= 1]. *)
Theorem C55_deserialize : forall K V Q (bor : K -> Q) cmp N, order_laws cmp -> (1 <= N)%nat ->
  forall un E debug hint (items : list (K * V)) (e : option E), hint_fine hint ->
  match e with
  | None => exists m, b_deserialize bor cmp N un debug hint (Access items e) = Ok (inl m)
                      /\ b_shows bor cmp N m (s_extend bor cmp [] items)
  | Some x => b_deserialize bor cmp N un debug hint (Access items e) = Ok (inr x)
  end.
Proof.
  intros K V Q bor cmp N laws HN un E debug hint items e Hh.
  destruct (visit_ok (b_impl bor cmp N un) _ _ _ _ (btree_visitor_ok bor cmp laws N HN un) debug hint items e Hh I)
    as (r & Er & X).
  unfold b_deserialize. rewrite Er. destruct r as [m|x].
  - destruct X as [-> X]. exists m. auto.
  - now subst e.
Qed.
Print Assumptions C55_deserialize.
Definition some_un (t : bt skey Z) : bool := Nat.even (n_len t).
Example C55_ex : exists m, b_deserialize (E := Z) sbor Z.compare 1 some_un true (Some 20%N) (Access messy None) = Ok (inl m)
  /\ b_shows sbor Z.compare 1 m tidied.
Proof. exact (C55_deserialize _ _ _ sbor _ 1%nat Zcmp_laws (le_n 1) some_un Z true (Some 20%N) messy None eq_refl). Qed.
(** The right half lacks a child; [check] notices that, and the map is built anew. *)
Example C55_ex' : exists m, b_deserialize (E := Z) sbor Z.compare 1 some_un true (Some 14%N) (Access s9 None) = Ok (inl m)
  /\ b_shows sbor Z.compare 1 m s9.
Proof. exact (C55_deserialize _ _ _ sbor _ 1%nat Zcmp_laws (le_n 1) some_un Z true (Some 14%N) s9 None eq_refl). Qed.
Example C55_ex'' : b_deserialize sbor Z.compare 1 some_un false (Some 9%N) (Access messy (Some 77)) = Ok (inr 77).
Proof. exact (C55_deserialize _ _ _ sbor _ 1%nat Zcmp_laws (le_n 1) some_un Z false (Some 9%N) messy (Some 77) eq_refl). Qed.

(** ** C53: round trip. What a map is serialised to is its length and its entries in order; a
    format that keeps the entries, whatever becomes of the length, gives an equal map. The sets
    derive both traits: they are read and written as their [map] field, a map to [()]. *)
Theorem C53_avl : forall K V Q (bor : K -> Q) cmp, order_laws cmp ->
  forall (m : avl_map K V) l, shows bor cmp m l -> small l ->
  avl_serialize m = Ok (Some (N.of_nat (length l)), l)
  /\ hint_fine (Some (N.of_nat (length l)))
  /\ forall E debug hint, hint_fine hint ->
     exists m', avl_deserialize bor cmp debug hint (@Access K V E l None) = Ok (inl m') /\ shows bor cmp m' l.
Proof.
  intros K V Q bor cmp laws m l H Hs. destruct (shows_asc bor cmp laws m l H) as [A L].
  split; [|split].
  - unfold avl_serialize. rewrite (proj2 H). cbn [bind]. now rewrite L.
  - unfold hint_fine, small in *. Lia.lia.
  - intros E debug hint Hh. destruct (C54_deserialize K V Q bor cmp laws E debug hint l None Hh Hs) as (m' & E' & X).
    exists m'. split; auto. rewrite s_extend_asc in X; auto.
Qed.
Theorem C53_btree : forall K V Q (bor : K -> Q) cmp N, order_laws cmp -> (1 <= N)%nat ->
  forall (m : bt_map K V) l, b_shows bor cmp N m l -> small l ->
  b_serialize m = Ok (Some (N.of_nat (length l)), l)
  /\ hint_fine (Some (N.of_nat (length l)))
  /\ forall un E debug hint, hint_fine hint ->
     exists m', b_deserialize bor cmp N un debug hint (@Access K V E l None) = Ok (inl m') /\ b_shows bor cmp N m' l.
Proof.
  intros K V Q bor cmp N laws HN m l H Hs. destruct (b_shows_asc bor cmp N laws HN m l H) as [A L].
  split; [|split].
  - unfold b_serialize. rewrite (proj2 (proj2 H)). cbn [bind]. now rewrite L.
  - unfold hint_fine, small in *. Lia.lia.
  - intros un E debug hint Hh. destruct (C55_deserialize K V Q bor cmp N laws HN un E debug hint l None Hh) as (m' & E' & X).
    exists m'. split; auto. rewrite s_extend_asc in X; auto.
Qed.
Print Assumptions C53_avl.
Print Assumptions C53_btree.
Example C53_ex : avl_serialize a9 = Ok (Some 9%N, s9)
  /\ exists m', avl_deserialize (E := Z) sbor Z.compare true (Some 9%N) (Access s9 None) = Ok (inl m') /\ shows sbor Z.compare m' s9.
Proof.
  destruct (C53_avl _ _ _ sbor _ Zcmp_laws a9 s9 a9_shows eq_refl) as (H1 & H2 & H3). split; [exact H1|].
  exact (H3 Z true (Some 9%N) H2).
Qed.
Example C53_ex' : b_serialize t9 = Ok (Some 9%N, s9)
  /\ exists m', b_deserialize (E := Z) sbor Z.compare 1 some_un true (Some 9%N) (Access s9 None) = Ok (inl m')
                /\ b_shows sbor Z.compare 1 m' s9.
Proof.
  destruct (C53_btree _ _ _ sbor _ 1%nat Zcmp_laws (le_n 1) t9 s9 t9_shows eq_refl) as (H1 & H2 & H3). split; [exact H1|].
  exact (H3 some_un Z true (Some 9%N) H2).
Qed.

(** ** C56 (finding): with the size hint [usize::MAX] deserialisation panics, whatever the
    entries are, with and without overflow checks (without them the left half has length 0, which
    [assert!(len > 0)] rejects). *)
Theorem C56_avl : forall K V Q (bor : K -> Q) cmp E debug (a : access K V E),
  avl_deserialize bor cmp debug (Some (2 ^ 64 - 1)%N) a = Panic.
Proof. intros. apply visit_max. reflexivity. Qed.
Theorem C56_btree : forall K V Q (bor : K -> Q) cmp N un E debug (a : access K V E), Z.of_nat (2 * N + 2) < 2 ^ 64 - 1 ->
  b_deserialize bor cmp N un debug (Some (2 ^ 64 - 1)%N) a = Panic.
Proof. intros. apply visit_max. cbn [b_impl mi_max_half_len]. unfold MAX_OCC. Lia.lia. Qed.
(** So the bound on the hint in C54 and C55 is needed. *)
Theorem C56_strong_refuted : exists (hint : N) (items : list (Z * Z)), (hint < 2 ^ 64)%N /\
  (forall debug, avl_deserialize (E := unit) (fun k => k) Z.compare debug (Some hint) (Access items None) = Panic)
  /\ (forall un debug, b_deserialize (E := unit) (fun k => k) Z.compare 6 un debug (Some hint) (Access items None) = Panic).
Proof.
  exists (2 ^ 64 - 1)%N, [(1, 1)]. split; [reflexivity|]. split.
  - intros debug. apply C56_avl.
  - intros un debug. apply C56_btree. reflexivity.
Qed.
Print Assumptions C56_avl.
Print Assumptions C56_btree.
Print Assumptions C56_strong_refuted.
Example C56_ex : avl_deserialize (E := Z) sbor Z.compare false (Some (2 ^ 64 - 1)%N) (Access s9 None) = Panic.
Proof. exact (C56_avl _ _ _ sbor Z.compare Z false (Access s9 None)). Qed.
