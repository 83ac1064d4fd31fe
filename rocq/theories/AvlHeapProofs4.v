(** The calls of [AvlMap] on the heap. *)
From Coq Require Import List ZArith Bool Lia.
From Verif Require Import Base Spec MapSpec Heap HeapProofs AvlModel AvlHistModel AvlMapProofs AvlHistProofs
  AvlHeapModel AvlHeapSpec AvlHeapProofs AvlHeapProofs2 AvlHeapProofs3.
From Verif Require AvlProofs AvlProofs2.
Import ListNotations.
Local Open Scope nat_scope.

Section Maps.
  Context {K V Q : Type} (bor : K -> Q) (cmp : Q -> Q -> comparison).
  Variable bomb : nat -> bool.
  Notation pay := (pay K V).
  Notation heap := (heap pay).
  Notation tree := (tree K V).
  Notation amap := (avl_map K V).
  Notation bombs := (bombs bomb).
  (** The tree is balanced; nothing about the order of the keys. *)
  Definition shaped (a : amap) : Prop := AvlProofs.avl (am_root a).
  Notation fits := AvlProofs2.fits.

  (** [m] stands for the map value [a]. *)
  Definition mapped (h : heap) (m : hmap) (a : amap) : Prop :=
    hm_len m = am_len a /\ den h (hm_root m) (tv (am_root a)).

  Lemma h_tree_ok (t : tree) : forall fuel (h : heap) p, den h p (tv t) -> levels t < fuel -> h_tree fuel h p = Ok t.
  Proof.
    induction t as [|k v lh rh l IHl r IHr]; intros fuel h p D L; destruct fuel as [|fuel]; try lia; cbn [levels] in L.
    - cbn [tv] in D. apply den_none in D as ->. reflexivity.
    - cbn [tv] in D. destruct (den_some _ _ _ _ D) as [a ->]. cbn [h_tree].
      destruct (den_get2 _ _ _ _ _ D) as (c & pl & pr & G & Dl & Dr). rewrite G.
      rewrite (IHl fuel h pl), (IHr fuel h pr) by (auto; lia). reflexivity.
  Qed.
  Lemma shaped_low (a : amap) : shaped a -> fits (contents a) -> low (am_root a).
  Proof. intros A F. now apply fits_low. Qed.
  Lemma read_s (h : heap) m a : mapped h m a -> shaped a -> fits (contents a) -> hm_read h m = Ok a.
  Proof.
    intros [L D] Va F. unfold hm_read. rewrite (h_tree_ok (am_root a)); auto.
    - cbn [bind]. rewrite L. now destruct a.
    - now apply low_levels, shaped_low.
  Qed.
  Lemma h_len_ok (h : heap) p t : den h p (tv t) -> low t -> h_len h p = Ok (t_len t).
  Proof. intros D L. unfold h_len. rewrite (h_tree_ok t); auto. now apply low_levels. Qed.

  (** The outcome of a call on a map. *)
  Definition mslot {A} (B : Prop) (O : list addr) (h : heap) (P : list pay -> Prop) (x : res (heap * hmap * out A))
             (D : A -> heap -> hmap -> Prop) (U : heap -> hmap -> Prop) : Prop :=
    exists h' m' r cs, x = Ok (h', m', r) /\ sound h' (olist (hm_root m') ++ O) /\ frame O h h'
      /\ clones h' = cs ++ clones h /\ P cs
      /\ match r with Done a => D a h' m' | Unwound => U h' m' /\ B end.

  Definition gives {A} (a' : amap) (x : A) : A -> heap -> hmap -> Prop :=
    fun y h' m' => y = x /\ mapped h' m' a'.
  (** What is left of a map whose removal unwound. *)
  Definition left_of (a : amap) (h' : heap) (m' : hmap) : Prop :=
    hm_len m' = am_len a /\ remnant (am_root a) h' (hm_root m').

  Lemma insert_s (h : heap) m a k v a' old O :
    sound h (olist (hm_root m) ++ O) -> mapped h m a -> shaped a -> fits (contents a) ->
    avl_insert bor cmp a k v = Ok (a', old) ->
    mslot bombs O h (fun cs => sub cs (path bor cmp (am_root a) (bor k))) (hm_insert bor cmp bomb h m k v)
      (gives a' old) (fun h' m' => mapped h' m' a).
  Proof.
    intros So [L D] Va F E. unfold avl_insert in E.
    destruct (ins bor cmp (am_root a) k v) as [[[t' old'] tl]|] eqn:Ei; [|discriminate]. cbn [bind] in E.
    injection E as <- <-.
    destruct (ins_ok bomb bor cmp (am_root a) depth h (hm_root m) k v t' old' tl O So D) as
      (h1 & p1 & r1 & cs & E1 & So1 & F1 & C1 & Sb1 & R1 & _); auto.
    { now apply low_levels, shaped_low. }
    unfold hm_insert. rewrite E1. cbn [bind].
    destruct r1 as [[o1 tl1]|].
    - destruct R1 as ([= -> ->] & D1 & _). eexists _, _, _, cs. split; [reflexivity|]. do 4 (split; [assumption|]).
      split; auto. split; auto. cbn. now rewrite L.
    - destruct R1 as [D1 B1]. eexists _, _, _, cs. split; [reflexivity|]. do 4 (split; [assumption|]).
      split; auto. split; auto.
  Qed.

  Lemma shrink_h (h : heap) m a O M (P : list pay -> Prop) x t' kv s a' :
    hm_len m = am_len a -> (forall cs, sub cs M -> P cs) ->
    slot bomb O h (clones h) M False x (is_done t' (kv, s)) (remnant (am_root a)) ->
    match kv with
    | None => Ok (AvlMap (am_len a) t', None)
    | Some e => n <- usize_sub (am_len a) 1;; Ok (AvlMap n t', Some e)
    end = Ok (a', kv) ->
    mslot bombs O h P (y <- x;; hm_shrink m y) (gives a' kv) (left_of a).
  Proof.
    intros L HP (h1 & p1 & r1 & cs & -> & So1 & F1 & C1 & Sb1 & R1 & _) E. cbn [bind]. unfold hm_shrink.
    destruct r1 as [y|].
    - destruct R1 as [-> D1]. destruct kv as [e|].
      + rewrite L. destruct (usize_sub (am_len a) 1) as [n|]; [|discriminate]. cbn [bind] in E |- *. injection E as <-.
        eexists _, _, _, cs. split; [reflexivity|]. do 3 (split; [assumption|]). split; auto. split; auto. split; auto.
      + injection E as <-. eexists _, _, _, cs. split; [reflexivity|]. do 3 (split; [assumption|]).
        split; auto. split; auto. split; auto.
    - destruct R1 as [D1 B1]. eexists _, _, _, cs. split; [reflexivity|]. do 3 (split; [assumption|]).
      split; auto. split; auto. split; auto.
  Qed.

  Lemma shrink_value (a : amap) x a' kv :
    ('(t, kv, _) <- x;;
     match kv with
     | None => Ok (AvlMap (am_len a) t, None)
     | Some e => n <- usize_sub (am_len a) 1;; Ok (AvlMap n t, Some e)
     end) = Ok (a' : amap, kv : option (K * V)) ->
    exists t s, (x : res (tree * option (K * V) * bool)) = Ok (t, kv, s)
      /\ match kv with
         | None => Ok (AvlMap (am_len a) t, None)
         | Some e => n <- usize_sub (am_len a) 1;; Ok (AvlMap n t, Some e)
         end = Ok (a', kv).
  Proof.
    destruct x as [[[t kv'] s]|]; [|discriminate]. cbn [bind]. intros E. exists t, s.
    assert (kv' = kv). { destruct kv'; [destruct (usize_sub (am_len a) 1); cbn [bind] in E|]; congruence. }
    subst. auto.
  Qed.

  Lemma remove_s (h : heap) m a q a' kv O :
    sound h (olist (hm_root m) ++ O) -> mapped h m a -> shaped a -> fits (contents a) ->
    avl_remove_entry bor cmp a q = Ok (a', kv) ->
    mslot bombs O h (fun cs => sub cs (near bor cmp (am_root a) q)) (hm_remove_entry bor cmp bomb h m q)
      (gives a' kv) (left_of a).
  Proof.
    intros So [L D] Va F E. apply shrink_value in E as (t' & s & Er & E).
    eapply (shrink_h h m a O _ _ _ t' kv s a' L (fun _ H => H)); [|exact E].
    apply rm_ok; auto. now apply low_levels, shaped_low.
  Qed.
  Lemma pop_first_s (h : heap) m a a' kv O :
    sound h (olist (hm_root m) ++ O) -> mapped h m a -> shaped a -> fits (contents a) ->
    avl_pop_first a = Ok (a', kv) ->
    mslot bombs O h (fun cs => sub cs (near_first (am_root a))) (hm_pop_first bomb h m) (gives a' kv) (left_of a).
  Proof.
    intros So [L D] Va F E. apply shrink_value in E as (t' & s & Er & E).
    eapply (shrink_h h m a O _ _ _ t' kv s a' L (fun _ H => H)); [|exact E].
    apply rm_leftmost_ok; auto. now apply low_levels, shaped_low.
  Qed.
  Lemma pop_last_s (h : heap) m a a' kv O :
    sound h (olist (hm_root m) ++ O) -> mapped h m a -> shaped a -> fits (contents a) ->
    avl_pop_last a = Ok (a', kv) ->
    mslot bombs O h (fun cs => sub cs (near_last (am_root a))) (hm_pop_last bomb h m) (gives a' kv) (left_of a).
  Proof.
    intros So [L D] Va F E. apply shrink_value in E as (t' & s & Er & E).
    eapply (shrink_h h m a O _ _ _ t' kv s a' L (fun _ H => H)); [|exact E].
    apply rm_rightmost_ok; auto. now apply low_levels, shaped_low.
  Qed.

  Lemma get_mut_s (h : heap) m a q w O :
    sound h (olist (hm_root m) ++ O) -> mapped h m a -> shaped a -> fits (contents a) ->
    mslot bombs O h (fun cs => sub cs (path bor cmp (am_root a) q)) (hm_get_mut bor cmp bomb h m q w)
      (gives (fst (avl_get_mut bor cmp a q w)) (snd (avl_get_mut bor cmp a q w))) (fun h' m' => mapped h' m' a).
  Proof.
    intros So [L D] Va F.
    destruct (get_mut_ok bor cmp bomb (am_root a) depth h (hm_root m) q w O So D) as
      (h1 & p1 & r1 & cs & E1 & So1 & F1 & C1 & Sb1 & R1 & _); auto.
    { now apply low_levels, shaped_low. }
    unfold hm_get_mut, avl_get_mut. rewrite E1. cbn [bind].
    destruct (t_get_mut bor cmp (am_root a) q w) as [t' o]. cbn [fst snd] in *.
    eexists _, _, _, cs. split; [reflexivity|]. do 4 (split; [assumption|]).
    destruct r1 as [y|].
    - destruct R1 as [-> D1]. split; auto. split; auto.
    - destruct R1 as [D1 B1]. split; auto. split; auto.
  Qed.

  Lemma for_each_mut_s {S} (g : S -> K -> V -> S * V) (h : heap) m a s O :
    sound h (olist (hm_root m) ++ O) -> mapped h m a -> shaped a -> fits (contents a) ->
    mslot bombs O h (fun cs => sub cs (nodes (am_root a))) (hm_for_each_mut bomb g h m s)
      (gives (fst (avl_for_each_mut g a s)) (snd (avl_for_each_mut g a s)))
      (fun h' m' => hm_len m' = am_len a
                    /\ exists t', den h' (hm_root m') (tv t') /\ map fst (elems t') = map fst (contents a)).
  Proof.
    intros So [L D] Va F.
    destruct (AvlHeapProofs2.for_each_mut_ok bor cmp bomb g (am_root a) depth h (hm_root m) s O So D) as
      (h1 & p1 & r1 & cs & E1 & So1 & F1 & C1 & Sb1 & R1 & _); auto.
    { now apply low_levels, shaped_low. }
    unfold hm_for_each_mut, avl_for_each_mut. rewrite E1. cbn [bind].
    destruct (for_each_mut g (am_root a) s) as [t' o]. cbn [fst snd] in *.
    eexists _, _, _, cs. split; [reflexivity|]. do 4 (split; [assumption|]).
    destruct r1 as [y|].
    - destruct R1 as [-> D1]. split; auto. split; auto.
    - destruct R1 as [D1 B1]. split; auto.
  Qed.

  Lemma clear_h (h : heap) m O : sound h (olist (hm_root m) ++ O) ->
    exists h', hm_clear h m = Ok (h', hm_new) /\ hm_drop h m = Ok h' /\ sound h' O /\ frame O h h'
               /\ clones h' = clones h.
  Proof.
    intros [W A]. destruct (drop_ok _ _ _ W A) as (h' & E & W' & A' & F & C & _).
    exists h'. unfold hm_clear, hm_drop. rewrite E. repeat split; auto; apply F.
  Qed.
  Lemma clone_h (h : heap) m O : sound h O -> incl (olist (hm_root m)) O ->
    exists h', hm_clone h m = Ok (h', m) /\ sound h' (olist (hm_root m) ++ O) /\ frame O h h'
      /\ clones h' = clones h /\ length (cells h') = length (cells h) /\ same_nodes h h'.
  Proof.
    intros [W A] I. destruct (inc_ok h (hm_root m) O W A) as (h' & E & W' & A' & S1 & S2 & _ & L & C).
    { intros x Hx. apply in_or_app. auto. }
    exists h'. unfold hm_clone. rewrite E. cbn [bind]. repeat split; auto; try lia.
    - intros q t _. now apply den_same.
    - intros x G _. destruct (get h' x) as [[c n]|] eqn:E'; auto. destruct (S2 _ _ _ E') as [c' G']. congruence.
  Qed.

  (** A function that returns a new map. *)
  Definition mcall (B : Prop) (O : list addr) (h : heap) (x : res (heap * out hmap)) (D : heap -> hmap -> Prop) : Prop :=
    exists h' r cs, x = Ok (h', r) /\ frame O h h' /\ clones h' = cs ++ clones h
      /\ match r with
         | Done m' => sound h' (olist (hm_root m') ++ O) /\ D h' m'
         | Unwound => sound h' O /\ B
         end.

  Lemma merge_s keepl keepr dec (h : heap) m1 m2 a1 a2 t O :
    sound h (olist (hm_root m1) ++ olist (hm_root m2) ++ O) -> mapped h m1 a1 -> mapped h m2 a2 ->
    shaped a1 -> shaped a2 -> fits (contents a1 ++ contents a2) ->
    merge bor cmp keepl keepr dec (am_root a1) (am_root a2) = Ok t ->
    low t /\ callB bombs O h (clones h) (fun _ => True)
      (h_merge bor cmp bomb keepl keepr dec depth h (hm_root m1) (hm_root m2)) olist
      (fun p h' => den h' p (tv t)).
  Proof.
    intros So [L1 D1] [L2 D2] A1 A2 F E. split.
    - exact (merge_low bor cmp keepl keepr dec (am_root a1) (am_root a2) t A1 A2 F E).
    - eapply (merge_ok bor cmp bomb keepl keepr dec (am_root a1) (am_root a2)); try eassumption. apply low_levels, fits_low; auto.
      eapply AvlProofs2.fits_le; [|exact F]. unfold contents. rewrite app_length. lia.
  Qed.
  Lemma of_root_s keepl keepr dec (h : heap) m1 m2 a1 a2 a O :
    sound h (olist (hm_root m1) ++ olist (hm_root m2) ++ O) -> mapped h m1 a1 -> mapped h m2 a2 ->
    shaped a1 -> shaped a2 -> fits (contents a1 ++ contents a2) ->
    avl_of_root (merge bor cmp keepl keepr dec (am_root a1) (am_root a2)) = Ok a ->
    mcall bombs O h
      (hm_of_root (h_merge bor cmp bomb keepl keepr dec depth h (hm_root m1) (hm_root m2)))
      (fun h' m' => mapped h' m' a).
  Proof.
    intros So D1 D2 V1 V2 F E. unfold avl_of_root in E.
    destruct (merge _ _ _ _ _ _ _) as [t|] eqn:Em; [|discriminate]. cbn [bind] in E. injection E as <-.
    destruct (merge_s keepl keepr dec h m1 m2 a1 a2 t O) as (Lo & h' & r & cs & E' & F' & C' & _ & R'); auto.
    unfold hm_of_root. rewrite E'. cbn [bind].
    destruct r as [p|].
    - destruct R' as [So' D']. rewrite (h_len_ok _ _ t) by auto. cbn [bind].
      exists h', (Done (HMap (t_len t) p)), cs. do 3 (split; auto). split; [exact So'|]. split; auto.
    - exists h', Unwound, cs. split; [reflexivity|]. auto.
  Qed.
  Lemma append_s (h : heap) m1 m2 a1 a2 a' b' O :
    sound h (olist (hm_root m1) ++ olist (hm_root m2) ++ O) -> mapped h m1 a1 -> mapped h m2 a2 ->
    shaped a1 -> shaped a2 -> fits (contents a1 ++ contents a2) ->
    avl_append bor cmp a1 a2 = Ok (a', b') ->
    exists h' m1' m2' r cs, hm_append bor cmp bomb h m1 m2 = Ok (h', m1', m2', r)
      /\ frame O h h' /\ clones h' = cs ++ clones h
      /\ sound h' (olist (hm_root m1') ++ olist (hm_root m2') ++ O)
      /\ match r with
         | Done _ => mapped h' m1' a' /\ mapped h' m2' b'
         | Unwound => m1' = HMap (am_len a1) None /\ m2' = HMap (am_len a2) None /\ bombs
         end.
  Proof.
    intros So D1 D2 V1 V2 F E. unfold avl_append in E.
    destruct (union _ _ _ _) as [t|] eqn:Em; [|discriminate]. cbn [bind] in E. injection E as <- <-.
    unfold union in Em.
    destruct (merge_s true true (fun _ rhs => Some rhs) h m1 m2 a1 a2 t O) as (Lo & h' & r & cs & E' & F' & C' & _ & R'); auto.
    unfold hm_append, h_union. rewrite E'. cbn [bind].
    destruct r as [p|].
    - destruct R' as [So' D']. rewrite (h_len_ok _ _ t) by auto. cbn [bind].
      eexists h', _, _, _, cs. split; [reflexivity|]. split; auto. split; auto. split; [exact So'|].
      repeat split; auto. constructor.
    - eexists h', _, _, _, cs. split; [reflexivity|]. split; auto. split; auto. destruct R' as [So' B'].
      split; [exact So'|]. destruct D1 as [-> _], D2 as [-> _]. auto.
  Qed.

  Lemma retain_s {S} (f : S -> K -> V -> S * V * bool) (fbomb : S -> K -> V -> bool) (h : heap) m a s a' s' O :
    sound h (olist (hm_root m) ++ O) -> mapped h m a -> shaped a -> fits (contents a) ->
    avl_retain f a s = Ok (a', s') ->
    mslot (bombs \/ exists s k v, fbomb s k v = true) O h (fun _ => True) (hm_retain bomb f fbomb h m s)
      (gives a' s') (fun _ m' => m' = HMap (am_len a) None).
  Proof.
    intros So [L D] Va F E. unfold avl_retain in E.
    destruct (retain f (am_root a) s) as [[[t' n] s1]|] eqn:Er; [|discriminate]. cbn [bind] in E. injection E as <- <-.
    pose proof Va as A. red in A.
    destruct (retain_ok bor cmp bomb f fbomb (am_root a) depth h (hm_root m) s t' n s1 O So D) as
      (h1 & r1 & cs & E1 & F1 & C1 & _ & R1); auto.
    { now apply low_levels, fits_low. }
    unfold hm_retain. rewrite E1. cbn [bind].
    destruct r1 as [[[p n'] s2]|].
    - destruct R1 as (So1 & D1 & N1 & S1). cbn [fst snd] in *. subst.
      eexists _, _, _, cs. split; [reflexivity|]. repeat split; auto; try apply So1; try apply F1.
    - destruct R1 as [So1 B1]. eexists _, _, _, cs. split; [reflexivity|]. split; [exact So1|].
      do 3 (split; auto). split; [now rewrite L|exact B1].
  Qed.

  Lemma split_off_s (h : heap) m a q a1 a2 O :
    sound h (olist (hm_root m) ++ O) -> mapped h m a -> shaped a -> fits (contents a) ->
    avl_split_off bor cmp a q = Ok (a1, a2) ->
    exists h' m' r cs, hm_split_off bor cmp bomb h m q = Ok (h', m', r) /\ frame O h h'
      /\ clones h' = cs ++ clones h
      /\ match r with
         | Done m2 => sound h' (olist (hm_root m') ++ olist (hm_root m2) ++ O) /\ mapped h' m' a1 /\ mapped h' m2 a2
         | Unwound => sound h' (olist (hm_root m') ++ O) /\ bombs
                      /\ (m' = HMap (am_len a) None \/ mapped h' m' a1)
         end.
  Proof.
    intros So [L D] Va F E. unfold avl_split_off in E.
    destruct (split bor cmp (am_root a) q) as [[[lhs kv] rhs]|] eqn:Es; [|discriminate]. cbn [bind] in E.
    pose proof Va as A. red in A.
    destruct (split_ok bor cmp bomb (am_root a) depth h (hm_root m) q lhs kv rhs O So D) as
      (h1 & r1 & cs & E1 & F1 & C1 & _ & R1); auto.
    { now apply low_levels, fits_low. }
    destruct (split_fits bor cmp (am_root a) q lhs kv rhs A F Es) as [Ll Lr].
    unfold hm_split_off. rewrite E1. cbn [bind].
    destruct r1 as [[[pl kv'] pr]|].
    2:{ destruct R1 as [So1 B1]. exists h1, (HMap (hm_len m) None), Unwound, cs. split; [reflexivity|]. split; auto.
        split; auto. split; [exact So1|]. split; auto. left. now rewrite L. }
    destruct R1 as (So1 & Dl & Dr & E2). unfold own2 in So1. cbn [fst snd] in *. subst kv'.
    rewrite (h_len_ok _ _ lhs) by auto. cbn [bind]. rewrite L.
    destruct (usize_sub (am_len a) (t_len lhs)) as [n|]; [|discriminate]. cbn [bind] in E |- *.
    destruct kv as [[k v]|].
    - destruct (ins bor cmp rhs k v) as [[[r' old] tl]|] eqn:Ei; [|discriminate]. cbn [bind] in E. injection E as <- <-.
      assert (So1' : sound h1 (olist pr ++ olist pl ++ O)).
      { destruct So1 as [W Ac]. split; auto. eapply wf_equiv; [|exact W]. intros x. rewrite !cnt_app. lia. }
      destruct (ins_ok bomb bor cmp rhs depth h1 pr k v r' old tl (olist pl ++ O) So1' Dr) as
        (h2 & p2 & r2 & cs2 & E2 & So2 & F2 & C2 & _ & R2 & _); auto.
      { now apply low_levels. }
      rewrite E2. cbn [bind].
      assert (Dl2 : den h2 pl (tv lhs)). { apply F2; auto. intros x Hx. apply in_or_app. auto. }
      assert (Fr2 : frame O h h2).
      { eapply frame_trans; [exact F1|]. eapply frame_incl; [|exact F2]. intros x Hx. apply in_or_app. auto. }
      destruct r2 as [[o2 tl2]|].
      + exists h2, (HMap (t_len lhs) pl), (Done (HMap n p2)), (cs2 ++ cs). split; [reflexivity|]. split; auto.
        split; [rewrite C2, C1; apply app_assoc|]. destruct R2 as (_ & D2 & _).
        split; [|split; split; auto]. destruct So2 as [W Ac]. split; auto.
        eapply wf_equiv; [|exact W]. intros x. cbn [hm_root]. rewrite !cnt_app. lia.
      + destruct So2 as [W2 A2]. destruct (drop_ok _ _ _ W2 A2) as (h3 & E3 & W3 & A3 & F3 & C3 & _).
        rewrite E3. cbn [bind]. exists h3, (HMap (t_len lhs) pl), Unwound, (cs2 ++ cs).
        split; [reflexivity|]. split.
        { eapply frame_trans; [exact Fr2|]. eapply frame_incl; [|exact F3]. intros x Hx. apply in_or_app. auto. }
        split; [rewrite C3, C2, C1; apply app_assoc|]. split; [split; assumption|]. split; [apply R2|].
        right. split; auto. apply F3; auto. intros x Hx. apply in_or_app. auto.
    - cbn [bind] in E. injection E as <- <-.
      exists h1, (HMap (t_len lhs) pl), (Done (HMap n pr)), cs. split; [reflexivity|]. split; auto. split; auto.
      split; [|split; split; auto]. destruct So1 as [W Ac]. split; auto.
      eapply wf_equiv; [|exact W]. intros x. cbn [hm_root]. rewrite !cnt_app. lia.
  Qed.
End Maps.

(** The same for maps in order. *)
Section Valid.
  Context {K V Q : Type} (bor : K -> Q) (cmp : Q -> Q -> comparison) (laws : order_laws cmp).
  Variable bomb : nat -> bool.
  Notation pay := (pay K V).
  Notation heap := (heap pay).
  Notation tree := (tree K V).
  Notation amap := (avl_map K V).
  Notation bombs := (bombs bomb).
  Notation valid := (valid bor cmp).
  Notation fits := AvlProofs2.fits.

  Lemma valid_shaped (a : amap) : valid a -> shaped a.
  Proof. intros (A & _ & _). exact A. Qed.
  Lemma valid_low (a : amap) : valid a -> fits (contents a) -> low (am_root a).
  Proof. intros Va. exact (shaped_low _ (valid_shaped _ Va)). Qed.
  Lemma read_ok (h : heap) m a : mapped h m a -> valid a -> fits (contents a) -> hm_read h m = Ok a.
  Proof. intros M Va. exact (read_s _ _ _ M (valid_shaped _ Va)). Qed.
  Lemma insert_h (h : heap) m a k v a' old O :
    sound h (olist (hm_root m) ++ O) -> mapped h m a -> valid a -> fits (contents a) ->
    avl_insert bor cmp a k v = Ok (a', old) ->
    mslot bombs O h (fun cs => sub cs (path bor cmp (am_root a) (bor k))) (hm_insert bor cmp bomb h m k v)
      (gives a' old) (fun h' m' => mapped h' m' a).
  Proof. intros So M Va. exact (insert_s bor cmp bomb _ _ _ _ _ _ _ _ So M (valid_shaped _ Va)). Qed.
  Lemma remove_h (h : heap) m a q a' kv O :
    sound h (olist (hm_root m) ++ O) -> mapped h m a -> valid a -> fits (contents a) ->
    avl_remove_entry bor cmp a q = Ok (a', kv) ->
    mslot bombs O h (fun cs => sub cs (near bor cmp (am_root a) q)) (hm_remove_entry bor cmp bomb h m q)
      (gives a' kv) (left_of a).
  Proof. intros So M Va. exact (remove_s bor cmp bomb _ _ _ _ _ _ _ So M (valid_shaped _ Va)). Qed.
  Lemma pop_first_h (h : heap) m a a' kv O :
    sound h (olist (hm_root m) ++ O) -> mapped h m a -> valid a -> fits (contents a) ->
    avl_pop_first a = Ok (a', kv) ->
    mslot bombs O h (fun cs => sub cs (near_first (am_root a))) (hm_pop_first bomb h m) (gives a' kv) (left_of a).
  Proof. intros So M Va. exact (pop_first_s bomb _ _ _ _ _ _ So M (valid_shaped _ Va)). Qed.
  Lemma pop_last_h (h : heap) m a a' kv O :
    sound h (olist (hm_root m) ++ O) -> mapped h m a -> valid a -> fits (contents a) ->
    avl_pop_last a = Ok (a', kv) ->
    mslot bombs O h (fun cs => sub cs (near_last (am_root a))) (hm_pop_last bomb h m) (gives a' kv) (left_of a).
  Proof. intros So M Va. exact (pop_last_s bomb _ _ _ _ _ _ So M (valid_shaped _ Va)). Qed.
  Lemma get_mut_h (h : heap) m a q w O :
    sound h (olist (hm_root m) ++ O) -> mapped h m a -> valid a -> fits (contents a) ->
    mslot bombs O h (fun cs => sub cs (path bor cmp (am_root a) q)) (hm_get_mut bor cmp bomb h m q w)
      (gives (fst (avl_get_mut bor cmp a q w)) (snd (avl_get_mut bor cmp a q w))) (fun h' m' => mapped h' m' a).
  Proof. intros So M Va. exact (get_mut_s bor cmp bomb _ _ _ _ _ _ So M (valid_shaped _ Va)). Qed.
  Lemma for_each_mut_h {S} (g : S -> K -> V -> S * V) (h : heap) m a s O :
    sound h (olist (hm_root m) ++ O) -> mapped h m a -> valid a -> fits (contents a) ->
    mslot bombs O h (fun cs => sub cs (nodes (am_root a))) (hm_for_each_mut bomb g h m s)
      (gives (fst (avl_for_each_mut g a s)) (snd (avl_for_each_mut g a s)))
      (fun h' m' => hm_len m' = am_len a
                    /\ exists t', den h' (hm_root m') (tv t') /\ map fst (elems t') = map fst (contents a)).
  Proof. intros So M Va. exact (for_each_mut_s bor cmp bomb g _ _ _ _ _ So M (valid_shaped _ Va)). Qed.
  Lemma merge_h keepl keepr dec (h : heap) m1 m2 a1 a2 t O : AvlProofs2.dec_picks dec ->
    sound h (olist (hm_root m1) ++ olist (hm_root m2) ++ O) -> mapped h m1 a1 -> mapped h m2 a2 ->
    valid a1 -> valid a2 -> fits (contents a1 ++ contents a2) ->
    merge bor cmp keepl keepr dec (am_root a1) (am_root a2) = Ok t ->
    low t /\ callB bombs O h (clones h) (fun _ => True)
      (h_merge bor cmp bomb keepl keepr dec depth h (hm_root m1) (hm_root m2)) olist
      (fun p h' => den h' p (tv t)).
  Proof using laws. intros _ So M1 M2 V1 V2. exact (merge_s bor cmp bomb keepl keepr dec _ _ _ _ _ _ _ So M1 M2 (valid_shaped _ V1) (valid_shaped _ V2)). Qed.
  Lemma of_root_h keepl keepr dec (h : heap) m1 m2 a1 a2 a O : AvlProofs2.dec_picks dec ->
    sound h (olist (hm_root m1) ++ olist (hm_root m2) ++ O) -> mapped h m1 a1 -> mapped h m2 a2 ->
    valid a1 -> valid a2 -> fits (contents a1 ++ contents a2) ->
    avl_of_root (merge bor cmp keepl keepr dec (am_root a1) (am_root a2)) = Ok a ->
    mcall bombs O h
      (hm_of_root (h_merge bor cmp bomb keepl keepr dec depth h (hm_root m1) (hm_root m2)))
      (fun h' m' => mapped h' m' a).
  Proof using laws. intros _ So M1 M2 V1 V2. exact (of_root_s bor cmp bomb keepl keepr dec _ _ _ _ _ _ _ So M1 M2 (valid_shaped _ V1) (valid_shaped _ V2)). Qed.
  Lemma append_h (h : heap) m1 m2 a1 a2 a' b' O :
    sound h (olist (hm_root m1) ++ olist (hm_root m2) ++ O) -> mapped h m1 a1 -> mapped h m2 a2 ->
    valid a1 -> valid a2 -> fits (contents a1 ++ contents a2) ->
    avl_append bor cmp a1 a2 = Ok (a', b') ->
    exists h' m1' m2' r cs, hm_append bor cmp bomb h m1 m2 = Ok (h', m1', m2', r)
      /\ frame O h h' /\ clones h' = cs ++ clones h
      /\ sound h' (olist (hm_root m1') ++ olist (hm_root m2') ++ O)
      /\ match r with
         | Done _ => mapped h' m1' a' /\ mapped h' m2' b'
         | Unwound => m1' = HMap (am_len a1) None /\ m2' = HMap (am_len a2) None /\ bombs
         end.
  Proof using laws. intros So M1 M2 V1 V2. exact (append_s bor cmp bomb _ _ _ _ _ _ _ _ So M1 M2 (valid_shaped _ V1) (valid_shaped _ V2)). Qed.
  Lemma retain_h {S} (f : S -> K -> V -> S * V * bool) (fbomb : S -> K -> V -> bool) (h : heap) m a s a' s' O :
    sound h (olist (hm_root m) ++ O) -> mapped h m a -> valid a -> fits (contents a) ->
    avl_retain f a s = Ok (a', s') ->
    mslot (bombs \/ exists s k v, fbomb s k v = true) O h (fun _ => True) (hm_retain bomb f fbomb h m s)
      (gives a' s') (fun _ m' => m' = HMap (am_len a) None).
  Proof using laws. intros So M Va. exact (retain_s bor cmp bomb f fbomb _ _ _ _ _ _ _ So M (valid_shaped _ Va)). Qed.
  Lemma split_off_h (h : heap) m a q a1 a2 O :
    sound h (olist (hm_root m) ++ O) -> mapped h m a -> valid a -> fits (contents a) ->
    avl_split_off bor cmp a q = Ok (a1, a2) ->
    exists h' m' r cs, hm_split_off bor cmp bomb h m q = Ok (h', m', r) /\ frame O h h'
      /\ clones h' = cs ++ clones h
      /\ match r with
         | Done m2 => sound h' (olist (hm_root m') ++ olist (hm_root m2) ++ O) /\ mapped h' m' a1 /\ mapped h' m2 a2
         | Unwound => sound h' (olist (hm_root m') ++ O) /\ bombs
                      /\ (m' = HMap (am_len a) None \/ mapped h' m' a1)
         end.
  Proof using laws. intros So M Va. exact (split_off_s bor cmp bomb _ _ _ _ _ _ _ So M (valid_shaped _ Va)). Qed.
End Valid.
