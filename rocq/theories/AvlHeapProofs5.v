(** Histories of calls on maps that share nodes. *)
From Coq Require Import List ZArith Bool Lia.
From Verif Require Import Base Spec MapSpec Heap HeapProofs AvlModel AvlIterModel AvlHistModel AvlMapProofs AvlHistProofs
  AvlHeapModel AvlHeapSpec AvlHeapProofs AvlHeapProofs2 AvlHeapProofs3 AvlHeapHistModel AvlHeapHistSpec AvlHeapProofs4.
From Verif Require AvlProofs AvlProofs2.
Import ListNotations.
Local Open Scope nat_scope.

Section SetNth.
  Context {A : Type}.
  Lemma set_nth_0 (x a : A) l : set_nth 0 x (a :: l) = x :: l.
  Proof. reflexivity. Qed.
  Lemma set_nth_S n (x a : A) l : set_nth (S n) x (a :: l) = a :: set_nth n x l.
  Proof. reflexivity. Qed.
  Lemma set_nth_nil n (x : A) : set_nth n x [] = [].
  Proof. now destruct n. Qed.
  Lemma set_nth_same i (x : A) : forall l, nth_error l i = Some x -> set_nth i x l = l.
  Proof.
    induction i as [|i IH]; intros [|a l] H; try discriminate.
    - injection H as ->. apply set_nth_0.
    - rewrite set_nth_S. f_equal. auto.
  Qed.
  Lemma set_nth_twice i (x y : A) : forall l, set_nth i x (set_nth i y l) = set_nth i x l.
  Proof.
    induction i as [|i IH]; intros [|a l]; rewrite ?set_nth_nil; auto.
    rewrite !set_nth_S. f_equal. auto.
  Qed.
  Lemma set_nth_comm i (x y : A) : forall j l, i <> j -> set_nth i x (set_nth j y l) = set_nth j y (set_nth i x l).
  Proof.
    induction i as [|i IH]; intros [|j] [|a l] H; rewrite ?set_nth_nil; auto; try lia.
    rewrite !set_nth_S. f_equal. apply IH. lia.
  Qed.
  Lemma set_nth_other i (x : A) : forall j l, i <> j -> nth_error (set_nth i x l) j = nth_error l j.
  Proof.
    induction i as [|i IH]; intros [|j] [|a l] H; rewrite ?set_nth_nil, ?set_nth_S, ?set_nth_0; auto; try lia.
    cbn [nth_error]. apply IH. lia.
  Qed.
  Lemma set_nth_snoc i (x y : A) : forall l, i < length l -> set_nth i x (l ++ [y]) = set_nth i x l ++ [y].
  Proof.
    induction i as [|i IH]; intros [|a l] H; cbn [length] in H; try lia; auto.
    cbn [app]. rewrite !set_nth_S. cbn [app]. f_equal. apply IH. lia.
  Qed.
  Lemma set_nth_eq i (x : A) : forall l, i < length l -> nth_error (set_nth i x l) i = Some x.
  Proof.
    induction i as [|i IH]; intros [|a l] H; cbn [length] in H; try lia; auto.
    rewrite set_nth_S. cbn [nth_error]. apply IH. lia.
  Qed.
End SetNth.

Lemma Forall2_set {A B} (R : A -> B -> Prop) l l' i x y :
  Forall2 R l l' -> R x y -> Forall2 R (set_nth i x l) (set_nth i y l').
Proof.
  intros H Hm. revert i. induction H as [|m0 l0 st sst H0 H IH]; intros [|i]; rewrite ?set_nth_nil, ?set_nth_0, ?set_nth_S; auto.
Qed.
Lemma Forall2_nth {A B} (R : A -> B -> Prop) l l' i : Forall2 R l l' ->
  match nth_error l i, nth_error l' i with
  | Some x, Some y => R x y
  | None, None => True
  | _, _ => False
  end.
Proof.
  intros H. revert i. induction H as [|m0 l0 st sst H0 H IH]; intros [|i]; cbn; auto. apply IH.
Qed.

Section Hist.
  Context {K V Q : Type} (bor : K -> Q) (cmp : Q -> Q -> comparison) (laws : order_laws cmp).
  Context (keq : K -> K -> bool) (veq : V -> V -> bool).
  Context (kcmp : K -> K -> comparison) (vcmp : V -> V -> comparison).
  Variable bomb : nat -> bool.
  Variable fbomb : K -> V -> bool.
  Notation pay := (pay K V).
  Notation heap := (heap pay).
  Notation tree := (tree K V).
  Notation amap := (avl_map K V).
  Notation bombs := (bombs bomb).
  Notation valid := (valid bor cmp).
  Notation fits := AvlProofs2.fits.
  Notation op := (op K V Q).
  Notation obs := (obs K V).
  Notation rels := (rels bor cmp).
  Notation step := (step bor cmp keq veq kcmp vcmp).
  Notation s_step := (s_step bor cmp keq veq kcmp vcmp).
  Notation h_step := (h_step bor cmp keq veq kcmp vcmp bomb fbomb).
  Notation h_run := (h_run bor cmp keq veq kcmp vcmp bomb fbomb).

  (** The pointers that the maps hold. *)
  Notation holds := roots.
  Lemma holds_app a b : holds (a ++ b) = holds a ++ holds b.
  Proof. apply flat_map_app. Qed.
  Definition faults : Prop := bombs \/ exists k v, fbomb k v = true.

  Definition inv (h : heap) (ms : list hmap) (st : list amap) : Prop :=
    sound h (holds ms) /\ Forall2 (mapped h) ms st.

  Lemma holds_set i m' : forall ms x, i < length ms ->
    cnt x (holds (set_nth i m' ms)) = cnt x (olist (hm_root m') ++ holds (set_nth i hm_new ms)).
  Proof.
    induction i as [|i IH]; intros [|m ms] x H; cbn [length] in H; try lia.
    - rewrite !set_nth_0. cbn [holds flat_map]. rewrite !cnt_app. reflexivity.
    - rewrite !set_nth_S. cbn [holds flat_map]. fold (holds (set_nth i m' ms)) (holds (set_nth i hm_new ms)).
      rewrite !cnt_app, IH, cnt_app by lia. lia.
  Qed.
  Lemma sound_equiv (h : heap) O O' : (forall x, cnt x O = cnt x O') -> sound h O -> sound h O'.
  Proof. intros E [W A]. split; auto. eapply wf_equiv; eauto. Qed.

  Lemma mapped_frame (h h' : heap) ms st : Forall2 (mapped h) ms st -> frame (holds ms) h h' -> Forall2 (mapped h') ms st.
  Proof.
    intros H F. induction H as [|m a ms st [L D] H IH]; constructor.
    - split; auto. apply F; auto. intros x Hx. cbn. apply in_or_app. auto.
    - apply IH. eapply frame_incl; [|exact F]. intros x Hx. cbn. apply in_or_app. auto.
  Qed.
  Lemma new_mapped (h : heap) : mapped h hm_new (avl_new : amap).
  Proof. split; auto. constructor. Qed.

  (** Working on one map. *)
  Lemma inv_focus (h : heap) ms st i m : inv h ms st -> nth_error ms i = Some m ->
    sound h (olist (hm_root m) ++ holds (set_nth i hm_new ms)).
  Proof.
    intros [So _] E. eapply sound_equiv; [|exact So]. intros x.
    rewrite <- holds_set by (apply nth_error_Some; congruence). now rewrite set_nth_same.
  Qed.
  Lemma inv_hole (h : heap) ms st i : inv h ms st -> Forall2 (mapped h) (set_nth i hm_new ms) (set_nth i avl_new st).
  Proof. intros [_ M]. apply Forall2_set; auto. apply new_mapped. Qed.
  Lemma inv_upd (h h' : heap) ms st i m m' a' : inv h ms st -> nth_error ms i = Some m ->
    sound h' (olist (hm_root m') ++ holds (set_nth i hm_new ms)) -> frame (holds (set_nth i hm_new ms)) h h' ->
    mapped h' m' a' -> inv h' (set_nth i m' ms) (set_nth i a' st).
  Proof.
    intros I E So F M. split.
    - eapply sound_equiv; [|exact So]. intros x. symmetry. apply holds_set. apply nth_error_Some. congruence.
    - rewrite <- (set_nth_twice i m' hm_new), <- (set_nth_twice i a' avl_new).
      apply Forall2_set; auto. eapply mapped_frame; eauto. now apply inv_hole.
  Qed.
  Lemma inv_add (h h' : heap) ms st m' a' : inv h ms st ->
    sound h' (olist (hm_root m') ++ holds ms) -> frame (holds ms) h h' -> mapped h' m' a' ->
    inv h' (ms ++ [m']) (st ++ [a']).
  Proof.
    intros [_ M] So F M'. split.
    - eapply sound_equiv; [|exact So]. intros x. rewrite holds_app. cbn [holds flat_map].
      rewrite app_nil_r, !cnt_app. lia.
    - apply Forall2_app; auto. eapply mapped_frame; eauto.
  Qed.
  Lemma inv_same (h h' : heap) ms st : inv h ms st -> sound h' (holds ms) -> frame (holds ms) h h' -> inv h' ms st.
  Proof. intros [_ M] So F. split; auto. eapply mapped_frame; eauto. Qed.

  (** *** [extend], [or_insert] *)
  Lemma extend_h ps : forall (h : heap) m a O,
    sound h (olist (hm_root m) ++ O) -> mapped h m a -> valid a -> fits (contents a ++ ps) ->
    exists h' m' r cs, hm_extend bor cmp bomb h m ps = Ok (h', m', r)
      /\ sound h' (olist (hm_root m') ++ O) /\ frame O h h' /\ clones h' = cs ++ clones h
      /\ match r with
         | Done _ => forall a', avl_extend bor cmp a ps = Ok a' -> mapped h' m' a'
         | Unwound => bombs /\ exists done rest a1, ps = done ++ rest /\ mapped h' m' a1 /\ valid a1
                        /\ contents a1 = s_extend bor cmp (contents a) done
         end.
  Proof.
    induction ps as [|[k v] ps IH]; intros h m a O So M Va F; cbn [hm_extend].
    - eexists _, _, _, []. split; [reflexivity|]. split; auto. split; [apply frame_refl|]. split; auto.
      intros a' [= <-]. exact M.
    - assert (Fa : fits (contents a)) by (eapply AvlProofs2.fits_le; [|exact F]; rewrite app_length; lia).
      destruct (insert_spec bor cmp laws a k v Va Fa) as (a1 & E1 & V1 & C1).
      destruct (insert_h bor cmp bomb h m a k v a1 _ O So M Va Fa E1) as (h1 & m1 & r1 & cs & Eh & So1 & F1 & Cl & _ & R1).
      rewrite Eh. cbn [bind avl_extend]. rewrite E1. cbn [bind].
      destruct r1 as [y|].
      + destruct R1 as [_ M1].
        assert (Fp : fits (contents a1 ++ ps)).
        { eapply AvlProofs2.fits_le; [|exact F]. rewrite C1, !app_length. cbn [length].
          pose proof (length_insert_le bor cmp laws k v (contents a) (valid_asc _ _ _ Va)). lia. }
        destruct (IH h1 m1 a1 O So1 M1 V1 Fp) as (h2 & m2 & r2 & cs2 & E2 & So2 & F2 & C2 & R2).
        rewrite E2. exists h2, m2, r2, (cs2 ++ cs). split; [reflexivity|]. split; auto.
        split; [eapply frame_trans; eauto|]. split; [rewrite C2, Cl; apply app_assoc|].
        destruct r2; auto. destruct R2 as (B2 & done & rest & a2 & -> & M2 & V2 & C2').
        split; auto. exists ((k, v) :: done), rest, a2. split; auto. split; auto. split; auto.
        rewrite C2', C1. reflexivity.
      + destruct R1 as [M1 B1]. exists h1, m1, Unwound, cs. split; [reflexivity|]. do 3 (split; auto). split; auto.
        exists [], ((k, v) :: ps), a. auto.
  Qed.

  Lemma or_insert_h (h : heap) m a k v w O a' x :
    sound h (olist (hm_root m) ++ O) -> mapped h m a -> valid a -> fits (contents a) ->
    (Z.of_nat (Datatypes.S (length (contents a))) < 2 ^ 64)%Z ->
    entry_or_insert bor cmp a k v w = Ok (a', x) ->
    mslot bombs O h (fun _ => True) (hm_or_insert bor cmp bomb h m k v w) (gives a' x)
      (fun h' m' => mapped h' m' a
                    \/ exists a1, mapped h' m' a1 /\ valid a1 /\ contents a1 = s_insert bor cmp k v (contents a)).
  Proof.
    intros So M Va F F1 E. unfold hm_or_insert. rewrite (read_ok bor cmp h m a) by auto. cbn [bind].
    unfold entry_or_insert, entry_or_insert_with in E.
    destruct (avl_contains_key bor cmp a (bor k)); cbn [negb bind] in E |- *.
    - destruct (get_mut_h bor cmp bomb h m a (bor k) w O So M Va F) as (h2 & m2 & r2 & cs2 & E2 & So2 & F2 & C2 & _ & R2).
      rewrite E2. cbn [bind].
      destruct (avl_get_mut bor cmp a (bor k) w) as [a2 o2]. cbn [fst snd] in R2.
      destruct (unwrap o2) as [y|] eqn:Eu; [|discriminate]. cbn [bind] in E. injection E as <- <-.
      destruct r2 as [z|].
      + destruct R2 as [-> M2]. rewrite Eu. cbn [bind]. eexists _, _, _, cs2. split; [reflexivity|]. do 4 (split; auto). split; auto.
      + destruct R2 as [M2 B2]. eexists _, _, _, cs2. split; [reflexivity|]. do 4 (split; auto).
    - destruct (insert_spec bor cmp laws a k v Va F) as (a1 & E1 & V1 & C1). rewrite E1 in E. cbn [bind] in E.
      destruct (insert_h bor cmp bomb h m a k v a1 _ O So M Va F E1) as (h1 & m1 & r1 & cs & Eh & So1 & Fr1 & Cl & _ & R1).
      rewrite Eh. cbn [bind].
      destruct r1 as [y|].
      2:{ destruct R1 as [M1 B1]. eexists _, _, _, cs. split; [reflexivity|]. do 4 (split; auto). }
      destruct R1 as [_ M1].
      assert (Fa1 : fits (contents a1)).
      { unfold fits. rewrite C1. pose proof (length_insert_le bor cmp laws k v (contents a) (valid_asc _ _ _ Va)). lia. }
      destruct (get_mut_h bor cmp bomb h1 m1 a1 (bor k) w O So1 M1 V1 Fa1) as (h2 & m2 & r2 & cs2 & E2 & So2 & F2 & C2 & _ & R2).
      rewrite E2. cbn [bind].
      destruct (avl_get_mut bor cmp a1 (bor k) w) as [a2 o2]. cbn [fst snd] in R2.
      destruct (unwrap o2) as [z|] eqn:Eu; [|discriminate]. cbn [bind] in E. injection E as <- <-.
      assert (Fr : frame O h h2) by (eapply frame_trans; eauto).
      destruct r2 as [z2|].
      + destruct R2 as [-> M2]. rewrite Eu. cbn [bind]. eexists _, _, _, (cs2 ++ cs). split; [reflexivity|].
        split; auto. split; auto. split; [rewrite C2, Cl; apply app_assoc|]. split; auto. split; auto.
      + destruct R2 as [M2 B2]. eexists _, _, _, (cs2 ++ cs). split; [reflexivity|].
        split; auto. split; auto. split; [rewrite C2, Cl; apply app_assoc|]. split; auto. split; auto. right. eauto.
  Qed.

  (** *** One call *)
  Definition good (sst : list (list (K * V))) (o : op) (st' : list amap) (ob : obs) (x : res (world * out obs)) : Prop :=
    exists h' ms' r, x = Ok ((h', ms'), r) /\
      match r with
      | Done ob' => ob' = ob /\ inv h' ms' st'
      | Unwound => faults /\ exists st1 sst1, s_unwound bor cmp sst o sst1 /\ inv h' ms' st1 /\ rels st1 sst1
      end.

  Lemma small_S (l : list (K * V)) : small l -> (Z.of_nat (Datatypes.S (length l)) < 2 ^ 64)%Z.
  Proof. unfold small. lia. Qed.

  Section Call.
    Context (h : heap) (ms : list hmap) (st : list amap) (sst : list (list (K * V))) (o : op) (st' : list amap) (ob : obs).
    Context (I : inv h ms st) (R : rels st sst) (Sm : Forall small sst).
    Notation good := (good sst o st' ob).
    Notation hole i := (holds (set_nth i hm_new ms)).

    Lemma one i (F : hmap -> res (world * out obs)) f : on st i f = Ok (st', ob) ->
      (forall m a, nth_error ms i = Some m -> nth_error st i = Some a -> nth_error sst i = Some (contents a) ->
         sound h (olist (hm_root m) ++ hole i) -> mapped h m a -> valid a -> small (contents a) ->
         f a = Ok (st', ob) -> good (F m)) ->
      good (match nth_error ms i with Some m => F m | None => Ok ((h, ms), Done RUnit) end).
    Proof.
      intros E H. unfold on in E. pose proof (Forall2_nth _ _ _ i (proj2 I)) as Hm.
      pose proof (rels_nth bor cmp st sst i R) as Hr.
      destruct (nth_error ms i) as [m|] eqn:E1, (nth_error st i) as [a|] eqn:E2; try contradiction.
      - destruct (nth_error sst i) as [l|] eqn:E3; [|contradiction]. destruct Hr as [Va <-].
        apply (H m a); auto.
        + eapply inv_focus; eauto.
        + eapply small_nth; eauto.
      - injection E as <- <-. exists h, ms, (Done RUnit). split; auto.
    Qed.
    Lemma reads i f : on st i (fun a => r <- f a;; Ok (st, r)) = Ok (st', ob) ->
      good (match nth_error ms i with
            | Some m => a <- hm_read h m;; r <- f a;; Ok ((h, ms), Done r)
            | None => Ok ((h, ms), Done RUnit)
            end).
    Proof.
      intros E. eapply one; [exact E|]. intros m a E1 E2 E3 So M Va Hs Ef. cbn beta in Ef |- *.
      rewrite (read_ok bor cmp h m a); auto using small_fits. cbn [bind].
      destruct (f a) as [r|]; [|discriminate]. injection Ef as <- <-. exists h, ms, (Done r). split; auto.
    Qed.
    Lemma reads2 i j f : on2 st i j (fun a b => r <- f a b;; Ok (st, r)) = Ok (st', ob) ->
      good (match nth_error ms i with
            | Some m =>
              match nth_error ms j with
              | Some m' => a <- hm_read h m;; b <- hm_read h m';; r <- f a b;; Ok ((h, ms), Done r)
              | None => Ok ((h, ms), Done RUnit)
              end
            | None => Ok ((h, ms), Done RUnit)
            end).
    Proof.
      intros E. unfold on2 in E. eapply one; [exact E|]. intros m a E1 E2 E3 So M Va Hs Ef. cbn beta in Ef |- *.
      eapply one; [exact Ef|]. intros m2 b E1' E2' E3' So' M' Va' Hs' Ef'. cbn beta in Ef' |- *.
      rewrite (read_ok bor cmp h m a), (read_ok bor cmp h m2 b); auto using small_fits. cbn [bind].
      destruct (f a b) as [r|]; [|discriminate]. injection Ef' as <- <-. exists h, ms, (Done r). split; auto.
    Qed.

    (** A call on map [i]: what is done when it unwinds is up to [fin]. *)
    Lemma writes {A} (B : Prop) i m P (x : res (heap * hmap * out A)) a' (y : A) (g : A -> obs) U
          (fin : heap -> hmap -> res (world * out obs)) :
      nth_error ms i = Some m -> mslot B (hole i) h P x (gives a' y) U ->
      Ok (set_nth i a' st, g y) = Ok (st', ob) ->
      (B -> faults) ->
      (forall h1 m1, sound h1 (olist (hm_root m1) ++ hole i) -> frame (hole i) h h1 -> U h1 m1 ->
         exists h2 m2 a2 l2, fin h1 m1 = Ok ((h2, set_nth i m2 ms), Unwound)
           /\ sound h2 (olist (hm_root m2) ++ hole i) /\ frame (hole i) h1 h2 /\ mapped h2 m2 a2
           /\ valid a2 /\ contents a2 = l2 /\ s_unwound bor cmp sst o (set_nth i l2 sst)) ->
      good ('(h1, m1, z) <- x;;
            match z with Done a => Ok ((h1, set_nth i m1 ms), Done (g a)) | Unwound => fin h1 m1 end).
    Proof.
      intros E1 (h1 & m1 & r1 & cs & -> & So1 & F1 & C1 & _ & R1) E HB H. cbn [bind].
      injection E as <- <-. destruct r1 as [z|].
      - destruct R1 as [-> M1]. eexists _, _, _. split; [reflexivity|]. split; auto. eapply inv_upd; eauto.
      - destruct R1 as [U1 B1]. destruct (H h1 m1 So1 F1 U1) as (h2 & m2 & a2 & l2 & Ef & So2 & F2 & M2 & V2 & C2 & Hu).
        rewrite Ef. eexists _, _, _. split; [reflexivity|]. split; auto.
        exists (set_nth i a2 st), (set_nth i l2 sst). split; auto. split.
        + eapply inv_upd; eauto. eapply frame_trans; eauto.
        + apply rels_set; auto. now split.
    Qed.
    (** After unwinding the map is as before. *)
    Lemma same_fin (i : nat) (a : amap) : nth_error st i = Some a -> nth_error sst i = Some (contents a) -> valid a ->
      s_unwound bor cmp sst o sst ->
      forall h1 m1, sound h1 (olist (hm_root m1) ++ hole i) -> frame (hole i) h h1 -> mapped h1 m1 a ->
         exists h2 m2 a2 l2, Ok ((h1, set_nth i m1 ms), @Unwound obs) = Ok ((h2, set_nth i m2 ms), Unwound)
           /\ sound h2 (olist (hm_root m2) ++ hole i) /\ frame (hole i) h1 h2 /\ mapped h2 m2 a2
           /\ valid a2 /\ contents a2 = l2 /\ s_unwound bor cmp sst o (set_nth i l2 sst).
    Proof.
      intros E1 E2 Va Hu h1 m1 So F M. exists h1, m1, a, (contents a). split; auto. split; auto.
      split; [apply frame_refl|]. do 3 (split; auto). now rewrite set_nth_same.
    Qed.
    (** After unwinding the map is replaced. *)
    Lemma clear_fin (i : nat) U : s_unwound bor cmp sst o (set_nth i [] sst) ->
      forall h1 m1, sound h1 (olist (hm_root m1) ++ hole i) -> frame (hole i) h h1 -> (U h1 m1 : Prop) ->
         exists h2 m2 a2 l2, ('(h2, m2) <- hm_clear h1 m1;; Ok ((h2, set_nth i m2 ms), @Unwound obs)) = Ok ((h2, set_nth i m2 ms), Unwound)
           /\ sound h2 (olist (hm_root m2) ++ hole i) /\ frame (hole i) h1 h2 /\ mapped h2 m2 a2
           /\ valid a2 /\ contents a2 = l2 /\ s_unwound bor cmp sst o (set_nth i l2 sst).
    Proof.
      intros Hu h1 m1 So F _. destruct (clear_h h1 m1 _ So) as (h2 & E & _ & So2 & F2 & _).
      exists h2, hm_new, avl_new, []. rewrite E. split; auto. split; auto. split; auto.
      split; [apply new_mapped|]. split; [apply new_valid|]. auto.
    Qed.

    (** A call that makes a new map from clones of two maps. *)
    Lemma combines keepl keepr dec i j : AvlProofs2.dec_picks dec -> s_unwound bor cmp sst o sst ->
      on2 st i j (fun a b => m <- avl_of_root (merge bor cmp keepl keepr dec (am_root a) (am_root b));;
                             Ok (st ++ [m], RUnit)) = Ok (st', ob) ->
      good (match nth_error ms i with
            | Some m =>
              match nth_error ms j with
              | Some m' =>
                '(h1, a) <- hm_clone h m;; '(h2, b) <- hm_clone h1 m';;
                '(h3, y) <- hm_of_root (h_merge bor cmp bomb keepl keepr dec depth h2 (hm_root a) (hm_root b));;
                match y with
                | Done m2 => Ok ((h3, ms ++ [m2]), Done RUnit)
                | Unwound => Ok ((h3, ms), Unwound)
                end
              | None => Ok ((h, ms), Done RUnit)
              end
            | None => Ok ((h, ms), Done RUnit)
            end).
    Proof.
      intros Hd Hu E. unfold on2 in E. eapply one; [exact E|]. intros m a E1 E2 E3 So M Va Hs Ef. cbn beta in Ef |- *.
      eapply one; [exact Ef|]. intros m2 b E1' E2' E3' So' M' Va' Hs' Ef'. cbn beta in Ef' |- *.
      assert (Hin : forall k mk, nth_error ms k = Some mk -> incl (olist (hm_root mk)) (holds ms)).
      { intros k mk Hk x Hx. apply in_flat_map. exists mk. split; auto. eapply nth_error_In; eauto. }
      destruct (clone_h h m (holds ms) (proj1 I) (Hin _ _ E1)) as (h1 & Ec1 & So1 & F1 & _ & _ & S1).
      rewrite Ec1. cbn [bind].
      destruct (clone_h h1 m2 (olist (hm_root m) ++ holds ms) So1) as (h2 & Ec2 & So2 & F2 & _ & _ & S2).
      { intros x Hx. apply in_or_app. right. eapply Hin; eauto. }
      rewrite Ec2. cbn [bind].
      assert (SS : same_nodes h h2) by (eapply same_nodes_trans; eauto).
      destruct (avl_of_root _) as [a3|] eqn:Em; [|discriminate]. cbn [bind] in Ef'. injection Ef' as <- <-.
      destruct (of_root_h bor cmp laws bomb keepl keepr dec h2 m m2 a b a3 (holds ms)) as (h3 & r3 & cs & E4 & F3 & C3 & R3); auto.
      { eapply sound_equiv; [|exact So2]. intros x. rewrite !cnt_app. lia. }
      { destruct M. split; auto. now apply (den_same h h2 SS). }
      { destruct M'. split; auto. now apply (den_same h h2 SS). }
      { now apply small_fits2. }
      assert (Fr : frame (holds ms) h h3).
      { eapply frame_trans; [exact F1|]. eapply frame_trans; [|exact F3]. eapply frame_incl; [|exact F2].
        intros x Hx. apply in_or_app. auto. }
      rewrite E4. cbn [bind]. destruct r3 as [m3|].
      - destruct R3 as [So3 M3]. eexists _, _, _. split; [reflexivity|]. split; auto. eapply inv_add; eauto.
      - destruct R3 as [So3 B3]. eexists _, _, _. split; [reflexivity|]. split; [now left|].
        exists st, sst. split; auto. split; auto. eapply inv_same; eauto.
    Qed.
  End Call.

  Lemma h_step_ok (h : heap) ms st sst o : inv h ms st -> rels st sst -> Forall small sst -> op_small o ->
    exists st', good sst o st' (snd (s_step sst o)) (h_step (h, ms) o) /\ rels st' (fst (s_step sst o)).
  Proof.
    intros I R Sm So. destruct (step_ok bor cmp laws keq veq kcmp vcmp st sst o R Sm So) as (st' & E & R').
    exists st'. split; auto. set (ob := snd (s_step sst o)) in *. clearbody ob. clear R'.
    assert (HB : bombs -> faults) by (intros H; left; exact H).
    assert (Hin : forall k mk, nth_error ms k = Some mk -> incl (olist (hm_root mk)) (holds ms)).
    { intros k mk Hk x Hx. apply in_flat_map. exists mk. split; auto. eapply nth_error_In; eauto. }
    destruct o as [|i|ps|i k v|i q|i q|i q|i q|i q|i q w|i k w|i k v w|i|i|i|i|i|i|i|i ps|i g|i q|i j|i j|i j|i j|i j|i cs|i lo hi cs|i j|i j|i];
      cbn [AvlHistModel.step AvlHeapHistModel.h_step] in *.
    - injection E as <- <-. eexists _, _, _. split; [reflexivity|]. split; auto.
      eapply inv_add; eauto using frame_refl, new_mapped. exact (proj1 I).
    - eapply one; eauto. intros m a E1 E2 E3 Sf M Va Hs Ef. cbn beta in *. injection Ef as <- <-.
      destruct (clone_h h m (holds ms) (proj1 I) (Hin _ _ E1)) as (h1 & Ec1 & So1 & F1 & _ & _ & S1).
      rewrite Ec1. cbn [bind]. eexists _, _, _. split; [reflexivity|]. split; auto.
      eapply inv_add; eauto. destruct M. split; auto. now apply (den_same h h1 S1).
    - unfold avl_from_iter in E. destruct (avl_extend bor cmp avl_new ps) as [a'|] eqn:Ea; [|discriminate]. cbn [bind] in E.
      injection E as <- <-.
      destruct (extend_h ps h hm_new avl_new (holds ms)) as (h1 & m1 & r1 & cs & E1 & So1 & F1 & C1 & R1).
      { exact (proj1 I). } { apply new_mapped. } { apply new_valid. } { now apply small_fits. }
      unfold hm_from_iter. rewrite E1. cbn [bind]. destruct r1 as [[]|]; cbn [bind].
      + eexists _, _, _. split; [reflexivity|]. split; auto. eapply inv_add; eauto.
      + destruct (clear_h h1 m1 _ So1) as (h2 & _ & Ed & So2 & F2 & _). rewrite Ed. cbn [bind].
        eexists _, _, _. split; [reflexivity|]. split; [apply HB, R1|]. exists st, sst. split; [reflexivity|]. split; auto.
        eapply inv_same; eauto. eapply frame_trans; eauto.
    - eapply one; eauto. intros m a E1 E2 E3 Sf M Va Hs Ef. cbn beta in *.
      destruct (avl_insert bor cmp a k v) as [[a' x]|] eqn:Ei; [|discriminate]. cbn [bind] in Ef.
      eapply writes; eauto; [eapply insert_h; eauto using small_fits|]. eapply same_fin; eauto. reflexivity.
    - eapply one; eauto. intros m a E1 E2 E3 Sf M Va Hs Ef. cbn beta in *. unfold avl_remove in Ef.
      destruct (avl_remove_entry bor cmp a q) as [[a' x]|] eqn:Ei; [|discriminate]. cbn [bind] in Ef.
      eapply (writes _ _ _ _ _ _ _ I R _ _ _ _ _ _ _ (fun x => RVal (option_map snd x)) _ (fun h1 m1 => '(h2, m2) <- hm_clear h1 m1;; Ok ((h2, set_nth i m2 ms), Unwound)));
        eauto; [eapply remove_h; eauto using small_fits|]. eapply clear_fin; eauto. reflexivity.
    - eapply one; eauto. intros m a E1 E2 E3 Sf M Va Hs Ef. cbn beta in *.
      destruct (avl_remove_entry bor cmp a q) as [[a' x]|] eqn:Ei; [|discriminate]. cbn [bind] in Ef.
      eapply (writes _ _ _ _ _ _ _ I R _ _ _ _ _ _ _ REntry _ (fun h1 m1 => '(h2, m2) <- hm_clear h1 m1;; Ok ((h2, set_nth i m2 ms), Unwound)));
        eauto; [eapply remove_h; eauto using small_fits|]. eapply clear_fin; eauto. reflexivity.
    - eapply reads; [eassumption..|exact E].
    - eapply reads; [eassumption..|exact E].
    - eapply reads; [eassumption..|exact E].
    - eapply one; eauto. intros m a E1 E2 E3 Sf M Va Hs Ef. cbn beta in *.
      pose proof (get_mut_h bor cmp bomb h m a q w _ Sf M Va (small_fits _ Hs)) as Hg.
      destruct (avl_get_mut bor cmp a q w) as [a' x]. cbn [fst snd] in Hg.
      eapply writes; eauto. eapply same_fin; eauto. reflexivity.
    - eapply one; eauto. intros m a E1 E2 E3 Sf M Va Hs Ef. cbn beta in *.
      pose proof (get_mut_h bor cmp bomb h m a (bor k) w _ Sf M Va (small_fits _ Hs)) as Hg.
      unfold entry_and_modify in Ef. destruct (avl_get_mut bor cmp a (bor k) w) as [a' x]. cbn [fst snd] in Hg, Ef.
      eapply (writes _ _ _ _ _ _ _ I R _ _ _ _ _ _ _ (fun _ => RUnit) _ (fun h1 m1 => Ok ((h1, set_nth i m1 ms), Unwound)));
      eauto. eapply same_fin; eauto. reflexivity.
    - eapply one; eauto. intros m a E1 E2 E3 Sf M Va Hs Ef. cbn beta in *.
      destruct (entry_or_insert bor cmp a k v w) as [[a' x]|] eqn:Ei; [|discriminate]. cbn [bind] in Ef.
      eapply (writes _ _ _ _ _ _ _ I R _ _ _ _ _ _ _ (fun x => RVal (Some x)) _ (fun h1 m1 => Ok ((h1, set_nth i m1 ms), Unwound)));
        eauto; [eapply or_insert_h; eauto using small_fits, small_S|].
      intros h1 m1 So1 F1 [M1|(a1 & M1 & V1 & C1)].
      + eapply same_fin; eauto. now left.
      + exists h1, m1, a1, (s_insert bor cmp k v (contents a)). split; auto. split; auto. split; [apply frame_refl|].
        do 3 (split; auto). right. now rewrite E3.
    - eapply reads; [eassumption..|exact E].
    - eapply reads; [eassumption..|exact E].
    - eapply one; eauto. intros m a E1 E2 E3 Sf M Va Hs Ef. cbn beta in *.
      destruct (avl_pop_first a) as [[a' x]|] eqn:Ei; [|discriminate]. cbn [bind] in Ef.
      eapply (writes _ _ _ _ _ _ _ I R _ _ _ _ _ _ _ REntry _ (fun h1 m1 => '(h2, m2) <- hm_clear h1 m1;; Ok ((h2, set_nth i m2 ms), Unwound)));
        eauto; [eapply pop_first_h; eauto using small_fits|]. eapply clear_fin; eauto. reflexivity.
    - eapply one; eauto. intros m a E1 E2 E3 Sf M Va Hs Ef. cbn beta in *.
      destruct (avl_pop_last a) as [[a' x]|] eqn:Ei; [|discriminate]. cbn [bind] in Ef.
      eapply (writes _ _ _ _ _ _ _ I R _ _ _ _ _ _ _ REntry _ (fun h1 m1 => '(h2, m2) <- hm_clear h1 m1;; Ok ((h2, set_nth i m2 ms), Unwound)));
        eauto; [eapply pop_last_h; eauto using small_fits|]. eapply clear_fin; eauto. reflexivity.
    - eapply reads; [eassumption..|exact E].
    - eapply reads; [eassumption..|exact E].
    - eapply one; eauto. intros m a E1 E2 E3 Sf M Va Hs Ef. cbn beta in *. injection Ef as <- <-.
      destruct (clear_h h m _ Sf) as (h1 & Ec & _ & So1 & F1 & _). rewrite Ec. cbn [bind].
      eexists _, _, _. split; [reflexivity|]. split; auto. eapply inv_upd; eauto. apply new_mapped.
    - eapply one; eauto. intros m a E1 E2 E3 Sf M Va Hs Ef. cbn beta in *.
      destruct (avl_extend bor cmp a ps) as [a'|] eqn:Ei; [|discriminate]. cbn [bind] in Ef.
      eapply (writes _ _ _ _ _ _ _ I R bombs _ m (fun _ => True) _ a' tt (fun _ => RUnit)
                (fun h' m' => exists done rest a1, ps = done ++ rest /\ mapped h' m' a1 /\ valid a1
                        /\ contents a1 = s_extend bor cmp (contents a) done)
                (fun h1 m1 => Ok ((h1, set_nth i m1 ms), Unwound))); eauto.
      + destruct (extend_h ps h m a _ Sf M Va) as (h1 & m1 & r1 & cs & E4 & So1 & F1 & C1 & R1); [now apply small_fits2|].
        exists h1, m1, r1, cs. do 4 (split; auto). split; auto. destruct r1 as [[]|].
        * split; auto.
        * destruct R1 as [B1 X]. auto.
      + intros h1 m1 So1 F1 (done & rest & a1 & -> & M1 & V1 & C1).
        exists h1, m1, a1, (s_extend bor cmp (contents a) done). split; auto. split; auto. split; [apply frame_refl|].
        do 3 (split; auto). cbn [s_unwound]. rewrite E3. eauto.
    - eapply one; eauto. intros m a E1 E2 E3 Sf M Va Hs Ef. cbn beta in *.
      destruct (avl_retain _ a tt) as [[a' x]|] eqn:Ei; [|discriminate]. cbn [bind] in Ef.
      pose proof (retain_h bor cmp laws bomb _ (fun _ k v => fbomb k v) h m a tt a' x _ Sf M Va (small_fits _ Hs) Ei) as Hr.
      refine (writes _ _ _ _ _ _ _ I R _ _ _ _ _ _ _ (fun _ => RUnit) _ (fun h1 m1 => '(h2, m2) <- hm_clear h1 m1;; Ok ((h2, set_nth i m2 ms), Unwound)) E1 Hr Ef _ _).
      + intros [B|(_ & k & v & B)]; [left; exact B|right; eauto].
      + eapply clear_fin; eauto. reflexivity.
    - eapply one; eauto. intros m a E1 E2 E3 Sf M Va Hs Ef. cbn beta in *.
      destruct (avl_split_off bor cmp a q) as [[a1 a2]|] eqn:Ei; [|discriminate]. cbn [bind] in Ef. injection Ef as <- <-.
      destruct (split_off_h bor cmp laws bomb h m a q a1 a2 _ Sf M Va (small_fits _ Hs) Ei) as (h1 & m1 & r1 & cs & E4 & F1 & C1 & R1).
      rewrite E4. cbn [bind]. destruct r1 as [m2|].
      + destruct R1 as (So1 & M1 & M2). eexists _, _, _. split; [reflexivity|]. split; auto.
        assert (So1' : sound h1 (olist (hm_root m2) ++ holds (set_nth i m1 ms))).
        { eapply sound_equiv; [|exact So1]. intros x. rewrite !cnt_app, (holds_set i m1), cnt_app; [lia|].
          apply nth_error_Some. congruence. }
        split.
        * eapply sound_equiv; [|exact So1']. intros x. rewrite holds_app. cbn [holds flat_map].
          rewrite app_nil_r, !cnt_app. lia.
        * apply Forall2_app; auto. rewrite <- (set_nth_twice i m1 hm_new), <- (set_nth_twice i a1 avl_new).
          apply Forall2_set; auto. eapply mapped_frame; eauto. now apply inv_hole.
      + destruct R1 as (So1 & B1 & _). destruct (clear_h h1 m1 _ So1) as (h2 & Ec & _ & So2 & F2 & _). rewrite Ec. cbn [bind].
        eexists _, _, _. split; [reflexivity|]. split; auto. exists (set_nth i avl_new st), (set_nth i [] sst).
        split; [reflexivity|]. split.
        * eapply inv_upd; eauto using new_mapped. eapply frame_trans; eauto.
        * apply rels_set; auto. split; auto. apply new_valid.
    - eapply one; eauto. intros m a E1 E2 E3 Sf M Va Hs Ef. cbn beta in *.
      eapply one; eauto. intros m2 b E1' E2' E3' Sf' M' Va' Hs' Ef'. cbn beta in *.
      destruct (Nat.eqb_spec i j) as [->|Hij].
      { injection Ef' as <- <-. eexists _, _, _. split; [reflexivity|]. split; auto. }
      destruct (avl_append bor cmp a b) as [[a' b']|] eqn:Ei; [|discriminate]. cbn [bind] in Ef'. injection Ef' as <- <-.
      set (O := holds (set_nth j hm_new (set_nth i hm_new ms))).
      assert (Lj : forall y, j < length (set_nth i y ms)).
      { intros y. apply nth_error_Some. rewrite set_nth_other by auto. congruence. }
      assert (Li : i < length ms) by (apply nth_error_Some; congruence).
      assert (HO : forall x1 x2 x, cnt x (holds (set_nth j x2 (set_nth i x1 ms)))
                                   = cnt x (olist (hm_root x1) ++ olist (hm_root x2) ++ O)).
      { intros x1 x2 x. rewrite holds_set by auto. rewrite (set_nth_comm j _ _ i) by auto.
        rewrite cnt_app, holds_set.
        2:{ apply nth_error_Some. rewrite set_nth_other by auto. congruence. }
        rewrite (set_nth_comm i _ _ j) by auto. fold O. rewrite !cnt_app. lia. }
      destruct (append_h bor cmp laws bomb h m m2 a b a' b' O) as (h1 & m1' & m2' & r1 & cs & E4 & F1 & C1 & So1 & R1); auto.
      { eapply sound_equiv; [|exact (proj1 I)]. intros x. rewrite <- HO.
        rewrite (set_nth_same i m ms) by auto. now rewrite (set_nth_same j). }
      { now apply small_fits2. }
      assert (Hw : forall h2 x1 x2 y1 y2, sound h2 (olist (hm_root x1) ++ olist (hm_root x2) ++ O) -> frame O h h2 ->
                mapped h2 x1 y1 -> mapped h2 x2 y2 ->
                inv h2 (set_nth j x2 (set_nth i x1 ms)) (set_nth j y2 (set_nth i y1 st))).
      { intros h2 x1 x2 y1 y2 So2 F2 M1 M2. split.
        - eapply sound_equiv; [|exact So2]. intros x. symmetry. apply HO.
        - assert (M0 : Forall2 (mapped h2) (set_nth j hm_new (set_nth i hm_new ms)) (set_nth j avl_new (set_nth i avl_new st))).
          { eapply mapped_frame; [|exact F2]. apply Forall2_set; [|apply new_mapped]. now apply inv_hole. }
          rewrite <- (set_nth_twice j x2 hm_new), <- (set_nth_twice j y2 avl_new). apply Forall2_set; auto.
          rewrite <- (set_nth_twice i x1 hm_new ms), <- (set_nth_twice i y1 avl_new st).
          rewrite <- (set_nth_comm i x1), <- (set_nth_comm i y1) by auto. apply Forall2_set; auto. }
      rewrite E4. cbn [bind]. destruct r1 as [u|].
      + destruct R1 as [M1 M2]. eexists _, _, _. split; [reflexivity|]. split; auto.
      + destruct R1 as (-> & -> & B1).
        destruct (clear_h h1 (HMap (am_len a) None) _ So1) as (h2 & Ec & _ & So2 & F2 & _). rewrite Ec. cbn [bind].
        destruct (clear_h h2 (HMap (am_len b) None) _ So2) as (h3 & Ec3 & _ & So3 & F3 & _). rewrite Ec3. cbn [bind].
        eexists _, _, _. split; [reflexivity|]. split; auto.
        exists (set_nth j avl_new (set_nth i avl_new st)), (set_nth j [] (set_nth i [] sst)). split; [split; auto|]. split.
        * apply Hw; auto using new_mapped. eapply frame_trans; [exact F1|]. eapply frame_trans; eauto.
        * repeat apply rels_set; auto; split; auto; apply new_valid.
    - eapply (combines _ _ _ _ _ _ _ I R Sm true true (fun _ rhs => Some rhs)); eauto; [intros x y e [= ->]; auto|reflexivity].
    - eapply (combines _ _ _ _ _ _ _ I R Sm false false (fun lhs _ => Some lhs)); eauto; [intros x y e [= ->]; auto|reflexivity].
    - eapply (combines _ _ _ _ _ _ _ I R Sm true false (fun _ _ => None)); eauto; [intros x y e [=]|reflexivity].
    - eapply (combines _ _ _ _ _ _ _ I R Sm true true (fun _ _ => None)); eauto; [intros x y e [=]|reflexivity].
    - eapply reads; eauto. rewrite <- E. unfold on. destruct (nth_error st i); auto. now destruct (run_ends _ _ _ _).
    - eapply reads; eauto. rewrite <- E. unfold on. destruct (nth_error st i) as [a|]; auto.
      destruct (avl_range bor cmp a lo hi); auto. cbn [bind]. now destruct (run_ends _ _ _ _).
    - eapply reads2; eauto. rewrite <- E. unfold on2, on. destruct (nth_error st i) as [a|], (nth_error st j) as [b|]; auto.
      now destruct (avl_eq _ _ _ _).
    - eapply reads2; eauto. rewrite <- E. unfold on2, on. destruct (nth_error st i) as [a|], (nth_error st j) as [b|]; auto.
      now destruct (avl_cmp _ _ _ _).
    - eapply reads; eauto. rewrite <- E. unfold on. destruct (nth_error st i) as [a|]; auto. now destruct (avl_chk _ _ _).
  Qed.
End Hist.
