(** Histories of calls on AVL maps that share nodes, with comparisons that may answer anything and may panic. *)
From Coq Require Import List ZArith Bool Lia Permutation.
From Verif Require AvlProofs AvlProofs2.
From Verif Require Import Base Spec MapSpec Heap HeapProofs AvlModel AvlIterModel AvlHistModel AvlMapProofs AvlHistProofs
  Ask AskSpec AskAnySpec AskAnyProofs AvlAskModel AvlAskAnyProofs AnyOrdSpec AvlAnyProofs AvlAnyHist SmallFacts.
From Verif Require Import AvlHeapModel AvlHeapAskModel AvlHeapSpec AvlHeapHistModel AvlHeapHistSpec AvlHeapAskHistModel AskHeapSpec AnyHeapSpec
  AvlHeapProofs AvlHeapProofs2 AvlHeapProofs3 AvlHeapProofs4 AvlHeapProofs5 AvlHeapProofs6
  AvlHeapAnyProofs AvlHeapAnyProofs2 AvlHeapAskProofs AvlHeapAskProofs2 AvlHeapAskProofs3.
Import ListNotations.
Local Open Scope nat_scope.

Section AskStep.
  Context {K V Q : Type} (bor : K -> Q) (ask : nat -> Q -> Q -> option comparison).
  Context (keq : K -> K -> bool) (veq : V -> V -> bool).
  Context (kcmp : K -> K -> comparison) (vcmp : V -> V -> comparison).
  Variable bomb : nat -> bool.
  Variable fbomb : K -> V -> bool.
  Notation heap := (heap (pay K V)).
  Notation amap := (avl_map K V).
  Notation entry := (K * V)%type.
  Notation op := (op K V Q).
  Notation obs := (obs K V).
  Notation world := (@world K V).
  Notation holds := roots.
  Notation bombs := (bombs bomb).
  Notation faults := (faults bomb fbomb).
  Notation said := (said bor ask).
  Notation ask_did := (ask_did bor ask keq veq kcmp vcmp).
  Notation ask_unwound := (ask_unwound bor ask).
  Notation h_step_t := (h_step_t bor ask keq veq kcmp vcmp bomb fbomb).

  Definition good_t (n : nat) (ls : list (list entry)) (o : op) (x : res (world * nat * out obs)) : Prop :=
    exists h' ms' n' r st' ls', x = Ok ((h', ms'), n', r) /\ n <= n' /\ inv h' ms' st' /\ rela st' ls' /\
      match r with
      | Done ob => ask_did n n' ls o ob ls'
      | Unwound => (faults \/ panicked ask n') /\ ask_unwound n n' ls o ls'
      end.

  Section Call.
    Context (h : heap) (ms : list hmap) (st : list amap) (ls : list (list entry)) (o : op) (n : nat).
    Context (I : inv h ms st) (R : rela st ls) (Sm : Forall small ls).
    Notation good := (good_t n ls o).
    Notation hole i := (holds (set_nth i hm_new ms)).

    Lemma one_t i (F : hmap -> res (world * nat * out obs)) :
      (nth_error ls i = None -> ask_did n n ls o RUnit ls) ->
      (forall m a l, nth_error ms i = Some m -> nth_error st i = Some a -> nth_error ls i = Some l ->
         sound h (olist (hm_root m) ++ hole i) -> mapped h m a -> a_any a l -> small l -> good (F m)) ->
      good (match nth_error ms i with Some m => F m | None => Ok ((h, ms), n, Done RUnit) end).
    Proof.
      intros E H. pose proof (Forall2_nth _ _ _ i (proj2 I)) as Hm. pose proof (Forall2_nth _ _ _ i R) as Hr.
      destruct (nth_error ms i) as [m|] eqn:E1, (nth_error st i) as [a|] eqn:E2; try contradiction;
        destruct (nth_error ls i) as [l|] eqn:E3; try contradiction.
      - apply (H m a l); auto. + eapply inv_focus; eauto. + eapply small_nth; eauto.
      - exists h, ms, n, (Done RUnit), st, ls. split; auto.
    Qed.
    Lemma looks_t i m a l q (g : option entry -> obs) : nth_error ls i = Some l -> mapped h m a -> a_any a l -> small l ->
      (forall x n', (forall e, x = Some e -> In e l /\ said n n' q e) -> ask_did n n' ls o (g x) ls) ->
      (forall n', ask_unwound n n' ls o ls) ->
      good ('(n1, x) <- hm_get_key_value_t bor ask h m q n;;
            match x with Done r => Ok ((h, ms), n1, Done (g r)) | Unwound => Ok ((h, ms), n1, Unwound) end).
    Proof.
      intros N M A S HD HU. destruct (get_t_m bor ask h m a l q n M A S) as (n' & r & E & Ln & P). rewrite E. cbn [bind].
      destruct r as [x|]; eexists _, _, _, _, st, ls; (split; [reflexivity|]); do 3 (split; [assumption|]); auto.
    Qed.
    Lemma writes_t {A} i m M (x : res (heap * hmap * nat * out A)) (g : A -> obs) D U
          (fin : heap -> hmap -> nat -> res (world * nat * out obs)) :
      nth_error ms i = Some m -> mslot_t (hole i) h n M x D U ->
      (forall y n' h1 m1, D y n' h1 m1 -> exists l', stands h1 m1 l' /\ ask_did n n' ls o (g y) (set_nth i l' ls)) ->
      (forall n' h1 m1, sound h1 (olist (hm_root m1) ++ hole i) -> U n' h1 m1 ->
         exists h2 m2 l2, fin h1 m1 n' = Ok ((h2, set_nth i m2 ms), n', Unwound)
           /\ sound h2 (olist (hm_root m2) ++ hole i) /\ frame (hole i) h1 h2 /\ stands h2 m2 l2
           /\ (bombs \/ panicked ask n') /\ ask_unwound n n' ls o (set_nth i l2 ls)) ->
      good ('(h1, m1, n1, z) <- x;;
            match z with Done a => Ok ((h1, set_nth i m1 ms), n1, Done (g a)) | Unwound => fin h1 m1 n1 end).
    Proof.
      intros E1 (h1 & m1 & n1 & r1 & cs & -> & So1 & F1 & C1 & _ & Ln & R1) HD HU. cbn [bind]. destruct r1 as [z|].
      - destruct (HD z n1 h1 m1 R1) as (l' & (a' & M' & A') & Di). eexists _, _, _, _, (set_nth i a' st), (set_nth i l' ls).
        split; [reflexivity|]. split; auto. split; [eapply inv_upd; eauto|]. split; auto. now apply Forall2_set.
      - destruct (HU n1 h1 m1 So1 R1) as (h2 & m2 & l2 & Ef & So2 & F2 & (a2 & M2 & A2) & Re & Un). rewrite Ef.
        eexists _, _, _, _, (set_nth i a2 st), (set_nth i l2 ls). split; [reflexivity|]. split; auto.
        split; [eapply inv_upd; eauto; eapply frame_trans; eauto|]. split; [now apply Forall2_set|].
        split; auto. destruct Re; [left; left|right]; assumption.
    Qed.
    (** A call that leaves the map as before if it unwinds. *)
    Lemma keeps_t {A} i m a l M (x : res (heap * hmap * nat * out A)) (g : A -> obs) D :
      nth_error ms i = Some m -> nth_error ls i = Some l -> a_any a l ->
      mslot_t (hole i) h n M x D (fun n' h' m' => mapped h' m' a /\ (bombs \/ panicked ask n')) ->
      (forall y n' h1 m1, D y n' h1 m1 -> exists l', stands h1 m1 l' /\ ask_did n n' ls o (g y) (set_nth i l' ls)) ->
      (forall n', ask_unwound n n' ls o ls) ->
      good ('(h1, m1, n1, z) <- x;;
            match z with Done a => Ok ((h1, set_nth i m1 ms), n1, Done (g a)) | Unwound => Ok ((h1, set_nth i m1 ms), n1, Unwound) end).
    Proof.
      intros N Nl Va S HD HU. eapply (writes_t i m M x g D _ (fun h1 m1 n1 => Ok ((h1, set_nth i m1 ms), n1, Unwound))); eauto.
      intros n' h1 m1 So [M1 Re]. exists h1, m1, l. split; auto. split; auto. split; [apply frame_refl|].
      split; [exists a; auto|]. split; auto. now rewrite set_nth_same.
    Qed.
    (** After unwinding the map is replaced. *)
    Lemma clears_t {A} i m M (x : res (heap * hmap * nat * out A)) (g : A -> obs) D U :
      nth_error ms i = Some m -> mslot_t (hole i) h n M x D U ->
      (forall y n' h1 m1, D y n' h1 m1 -> exists l', stands h1 m1 l' /\ ask_did n n' ls o (g y) (set_nth i l' ls)) ->
      (forall n' h1 m1, U n' h1 m1 -> bombs \/ panicked ask n') ->
      (forall n', ask_unwound n n' ls o (set_nth i [] ls)) ->
      good ('(h1, m1, n1, z) <- x;;
            match z with
            | Done a => Ok ((h1, set_nth i m1 ms), n1, Done (g a))
            | Unwound => '(h2, m2) <- hm_clear h1 m1;; Ok ((h2, set_nth i m2 ms), n1, Unwound)
            end).
    Proof.
      intros N S HD HB HU.
      eapply (writes_t i m M x g D U (fun h1 m1 n1 => '(h2, m2) <- hm_clear h1 m1;; Ok ((h2, set_nth i m2 ms), n1, Unwound))); eauto.
      intros n' h1 m1 So Hu. destruct (clear_h h1 m1 _ So) as (h2 & E & _ & So2 & F2 & _).
      exists h2, hm_new, []. rewrite E. split; auto. split; auto. split; auto.
      split; [exists avl_new; split; [apply new_mapped|apply isany_new]|]. eauto.
    Qed.
    Lemma combines_t keepl keepr dec i j :
      (forall n', ask_unwound n n' ls o ls) ->
      (nth_error ls i = None \/ nth_error ls j = None -> ask_did n n ls o RUnit ls) ->
      (forall la lb n' oa ob both l, nth_error ls i = Some la -> nth_error ls j = Some lb ->
         may_pair bor (said n n') la lb oa ob both -> Permutation l (merged keepl keepr dec oa ob both) ->
         ask_did n n' ls o RUnit (ls ++ [l])) ->
      good (match nth_error ms i with
            | Some m =>
              match nth_error ms j with
              | Some m' =>
                '(h1, a) <- hm_clone h m;; '(h2, b) <- hm_clone h1 m';;
                '(h3, n3, y) <- hm_of_root_t (h_merge_t bor ask bomb keepl keepr dec depth h2 (hm_root a) (hm_root b) n);;
                match y with
                | Done m2 => Ok ((h3, ms ++ [m2]), n3, Done RUnit)
                | Unwound => Ok ((h3, ms), n3, Unwound)
                end
              | None => Ok ((h, ms), n, Done RUnit)
              end
            | None => Ok ((h, ms), n, Done RUnit)
            end).
    Proof.
      intros HU HN HD. apply one_t; [auto|]. intros m a la E1 E2 E3 So M Va Hs. cbn beta.
      apply (one_t j (fun m' => '(h1, a) <- hm_clone h m;; '(h2, b) <- hm_clone h1 m';;
        '(h3, n3, y) <- hm_of_root_t (h_merge_t bor ask bomb keepl keepr dec depth h2 (hm_root a) (hm_root b) n);;
        match y with Done m2 => Ok ((h3, ms ++ [m2]), n3, Done RUnit) | Unwound => Ok ((h3, ms), n3, Unwound) end)); [auto|].
      intros m2 b lb E1' E2' E3' So' M' Va' Hs'. cbn beta.
      assert (Hin : forall k mk, nth_error ms k = Some mk -> incl (olist (hm_root mk)) (holds ms)).
      { intros k mk Hk x Hx. apply in_flat_map. exists mk. split; auto. eapply nth_error_In; eauto. }
      destruct (clone_h h m (holds ms) (proj1 I) (Hin _ _ E1)) as (h1 & Ec1 & So1 & F1 & _ & _ & S1).
      rewrite Ec1. cbn [bind].
      destruct (clone_h h1 m2 (olist (hm_root m) ++ holds ms) So1) as (h2 & Ec2 & So2 & F2 & _ & _ & S2).
      { intros x Hx. apply in_or_app. right. eapply Hin; eauto. }
      rewrite Ec2. cbn [bind].
      assert (SS : same_nodes h h2) by (eapply same_nodes_trans; eauto).
      destruct (of_root_t_m bor ask bomb keepl keepr dec h2 m m2 a b la lb n (holds ms)) as (h3 & n3 & r3 & cs & E4 & F3 & C3 & R3); auto.
      { eapply sound_equiv; [|exact So2]. intros x. rewrite !cnt_app. lia. }
      { destruct M. split; auto. now apply (den_same h h2 SS). }
      { destruct M'. split; auto. now apply (den_same h h2 SS). }
      assert (Fr : frame (holds ms) h h3).
      { eapply frame_trans; [exact F1|]. eapply frame_trans; [|exact F3]. eapply frame_incl; [|exact F2].
        intros x Hx. apply in_or_app. auto. }
      rewrite E4. cbn [bind]. destruct r3 as [m3|].
      - destruct R3 as (So3 & Ln & oa & ob & both & l & P & (a3 & M3 & A3) & X).
        eexists _, _, _, _, (st ++ [a3]), (ls ++ [l]). split; [reflexivity|]. split; auto. split; [eapply inv_add; eauto|].
        split; [apply Forall2_app; auto; repeat constructor; auto|]. eapply HD; eauto.
      - destruct R3 as (So3 & Ln & Re). eexists _, _, _, _, st, ls. split; [reflexivity|]. split; auto. split; [eapply inv_same; eauto|].
        split; auto. split; auto. destruct Re; [left; left|right]; assumption.
    Qed.
    (** The calls without comparisons. *)
    Lemma plain_t : tame o -> op_fits ls o ->
      (forall r ls', any_did bor keq veq kcmp vcmp (fun _ _ => Eq) ls o r ls' -> ask_did n n ls o r ls') ->
      (forall ls', any_unwound bor (fun _ _ => Eq) ls o ls' -> ask_unwound n n ls o ls') ->
      good (asked n (h_step bor (fun _ _ => Eq) keq veq kcmp vcmp bomb fbomb (h, ms) o)).
    Proof.
      intros Ta Of HD HU.
      destruct (h_step_any bor (fun _ _ => Eq) keq veq kcmp vcmp bomb fbomb h ms st ls o I R Sm Ta Of)
        as (st1 & r & ls1 & R1 & D & h1 & ms1 & r1 & E1 & P1).
      unfold asked. rewrite E1. cbn [bind]. destruct r1 as [ob|].
      - destruct P1 as [-> I1]. eexists _, _, _, _, st1, ls1. split; [reflexivity|]. auto.
      - destruct P1 as (Fl & st2 & ls2 & Un & I2 & R2). eexists _, _, _, _, st2, ls2. split; [reflexivity|].
        split; auto.
    Qed.
  End Call.

  Lemma step_t_ok (h : heap) ms st ls o n : inv h ms st -> rela st ls -> Forall small ls -> calm o -> op_fits ls o ->
    good_t n ls o (h_step_t (h, ms) n o).
  Proof.
    intros I R Sm Ca Of.
    destruct o as [|i|ps|i k v|i q|i q|i q|i q|i q|i q w|i k w|i k v w|i|i|i|i|i|i|i|i ps|i g|i q|i j|i j|i j|i j|i j|i cs|i lo hi cs|i j|i j|i];
      cbn [calm] in Ca; try contradiction; cbn [AvlHeapAskHistModel.h_step_t op_fits] in *;
      try (eapply plain_t; eauto; exact Logic.I).
    - destruct (extend_t_m bor ask bomb ps h hm_new avl_new [] n (holds ms)) as (h1 & m1 & n1 & r1 & cs & E1 & So1 & F1 & C1 & _ & Ln & R1).
      { exact (proj1 I). } { apply new_mapped. } { apply isany_new. } { exact Of. }
      rewrite E1. cbn [bind]. destruct r1 as [[]|].
      + destruct R1 as (l' & (a' & M' & A') & X). eexists _, _, _, _, (st ++ [a']), (ls ++ [l']). split; [reflexivity|]. split; auto.
        split; [eapply inv_add; eauto|]. split; [apply Forall2_app; auto; repeat constructor; auto|].
        split; auto. exists l'. auto.
      + destruct R1 as [Re _]. destruct (clear_h h1 m1 _ So1) as (h2 & _ & Ed & So2 & F2 & _). rewrite Ed. cbn [bind].
        eexists _, _, _, _, st, ls. split; [reflexivity|]. split; auto. split; [eapply inv_same; eauto; eapply frame_trans; eauto|].
        split; auto. split; [destruct Re; [left; left|right]; assumption|reflexivity].
    - eapply one_t; eauto; [intros N; cbn; now rewrite N|]. intros m a l E1 E2 E3 So M Va Hs.
      eapply (keeps_t _ _ _ _ _ _ I R _ _ _ _ _ _ RVal); eauto; [eapply insert_t_m; eauto| |reflexivity].
      intros y n' h1 m1 (l' & St & X). exists l'. split; auto. cbn. rewrite E3. eauto.
    - eapply one_t; eauto; [intros N; cbn; now rewrite N|]. intros m a l E1 E2 E3 So M Va Hs.
      eapply (clears_t _ _ _ _ _ _ I R _ _ _ _ (fun x => RVal (option_map snd x))); eauto; [eapply remove_t_m; eauto| | |reflexivity].
      + intros y n' h1 m1 (l' & St & X). exists l'. split; auto. cbn. rewrite E3. unfold may_remove_val. eauto 8.
      + intros n' h1 m1 [[_ X]|[_ X]]; auto.
    - eapply one_t; eauto; [intros N; cbn; now rewrite N|]. intros m a l E1 E2 E3 So M Va Hs.
      eapply (clears_t _ _ _ _ _ _ I R _ _ _ _ REntry); eauto; [eapply remove_t_m; eauto| | |reflexivity].
      + intros y n' h1 m1 (l' & St & X). exists l'. split; auto. cbn. rewrite E3. eauto.
      + intros n' h1 m1 [[_ X]|[_ X]]; auto.
    - eapply one_t; eauto; [intros N; cbn; now rewrite N|]. intros m a l E1 E2 E3 So M Va Hs.
      eapply (looks_t _ _ _ _ _ _ I R _ _ _ _ _ (fun x => RVal (option_map snd x))); eauto; [|reflexivity].
      intros x n' X. cbn. rewrite E3. split; auto. eexists. split; [reflexivity|]. destruct x as [e|]; cbn; auto. exists e. now destruct (X e eq_refl).
    - eapply one_t; eauto; [intros N; cbn; now rewrite N|]. intros m a l E1 E2 E3 So M Va Hs.
      eapply (looks_t _ _ _ _ _ _ I R _ _ _ _ _ REntry); eauto; [|reflexivity].
      intros x n' X. cbn. rewrite E3. split; auto. eexists. split; [reflexivity|]. auto.
    - eapply one_t; eauto; [intros N; cbn; now rewrite N|]. intros m a l E1 E2 E3 So M Va Hs.
      eapply (looks_t _ _ _ _ _ _ I R _ _ _ _ _ (fun x => RBool (match x with Some _ => true | None => false end))); eauto; [|reflexivity].
      intros x n' X. cbn. rewrite E3. split; auto. eexists. split; [reflexivity|]. destruct x as [e|]; [|discriminate]. intros _. exists e. auto.
    - eapply one_t; eauto; [intros N; cbn; now rewrite N|]. intros m a l E1 E2 E3 So M Va Hs.
      eapply (keeps_t _ _ _ _ _ _ I R _ _ _ _ _ _ RVal); eauto; [eapply get_mut_t_m; eauto| |reflexivity].
      intros y n' h1 m1 (l' & St & X). exists l'. split; auto. cbn. rewrite E3. eauto.
    - eapply one_t; eauto; [intros N; cbn; now rewrite N|]. intros m a l E1 E2 E3 So M Va Hs.
      eapply (keeps_t _ _ _ _ _ _ I R _ _ _ _ _ _ (fun _ => RUnit)); eauto; [eapply get_mut_t_m; eauto| |reflexivity].
      intros y n' h1 m1 (l' & St & X). exists l'. split; auto. cbn. rewrite E3. eauto.
    - eapply one_t; eauto; [intros N; cbn; now rewrite N|]. intros m a l E1 E2 E3 So M Va Hs.
      eapply (writes_t _ _ _ _ _ _ I R _ _ _ _ (fun _ => RUnit) _ _ (fun h1 m1 n1 => Ok ((h1, set_nth i m1 ms), n1, Unwound))); eauto;
        [eapply extend_t_m; eauto| |].
      + intros y n' h1 m1 (l' & St & X). exists l'. split; auto. cbn. rewrite E3. eauto.
      + intros n' h1 m1 So1 (Re & done & p & rest & l' & -> & St & X). exists h1, m1, l'. split; auto. split; auto. split; [apply frame_refl|].
        split; auto. split; auto. cbn. exists l, done, p, rest, l'. auto.
    - eapply one_t; eauto; [intros N; cbn; now rewrite N|]. intros m a la E1 E2 E3 So M Va Hs. cbn beta.
      eapply one_t; eauto; [intros N; cbn; now rewrite E3, N|]. intros m2 b lb E1' E2' E3' So' M' Va' Hs'. cbn beta.
      destruct (Nat.eqb_spec i j) as [->|Hij].
      { eexists _, _, _, _, st, ls. split; [reflexivity|]. do 3 (split; auto). cbn. rewrite ?E3, ?E3'. now rewrite Nat.eqb_refl. }
      set (O := holds (set_nth j hm_new (set_nth i hm_new ms))).
      assert (Lj : forall y, j < length (set_nth i y ms)).
      { intros y. apply nth_error_Some. rewrite set_nth_other by auto. congruence. }
      assert (Li : i < length ms) by (apply nth_error_Some; congruence).
      assert (HO : forall x1 x2 x, cnt x (holds (set_nth j x2 (set_nth i x1 ms)))
                                   = cnt x (olist (hm_root x1) ++ olist (hm_root x2) ++ O)).
      { intros x1 x2 x. rewrite holds_set by auto. rewrite (set_nth_comm j _ _ i) by auto.
        rewrite cnt_app, holds_set.
        2:{ apply nth_error_Some. rewrite set_nth_other by auto. congruence. }
        rewrite (set_nth_comm i _ _ j) by auto. fold O. rewrite !cnt_app. lia. }
      destruct (append_t_m bor ask bomb h m m2 a b la lb n O) as (h1 & m1' & m2' & n1 & r1 & cs & E4 & F1 & C1 & So1 & Ln & R1); auto.
      { eapply sound_equiv; [|exact (proj1 I)]. intros x. rewrite <- HO.
        rewrite (set_nth_same i m ms) by auto. now rewrite (set_nth_same j). }
      assert (Hw : forall h2 x1 x2 y1 y2, sound h2 (olist (hm_root x1) ++ olist (hm_root x2) ++ O) -> frame O h h2 ->
                mapped h2 x1 y1 -> mapped h2 x2 y2 ->
                inv h2 (set_nth j x2 (set_nth i x1 ms)) (set_nth j y2 (set_nth i y1 st))).
      { intros h2 x1 x2 y1 y2 So2 F2 M1 M2. split.
        - eapply sound_equiv; [|exact So2]. intros x. symmetry. apply HO.
        - assert (M0 : Forall2 (mapped h2) (set_nth j hm_new (set_nth i hm_new ms)) (set_nth j avl_new (set_nth i avl_new st))).
          { eapply mapped_frame; [|exact F2]. apply Forall2_set; [|apply new_mapped]. now apply inv_hole. }
          rewrite <- (set_nth_twice j x2 hm_new), <- (set_nth_twice j y2 avl_new). apply Forall2_set; auto.
          rewrite <- (set_nth_twice i x1 hm_new ms), <- (set_nth_twice i y1 avl_new st).
          rewrite <- (set_nth_comm i x1), <- (set_nth_comm i y1) by auto. apply Forall2_set; auto. }
      rewrite E4. cbn [bind]. destruct r1 as [u|].
      + destruct R1 as (-> & oa & ob & both & l & P & (a' & M1 & A1) & X).
        eexists _, _, _, _, (set_nth j avl_new (set_nth i a' st)), (set_nth j [] (set_nth i l ls)). split; [reflexivity|]. split; auto.
        split; [apply Hw; auto using new_mapped|]. split; [repeat apply Forall2_set; auto; apply isany_new|].
        cbn. rewrite E3, E3'. split; auto. destruct (Nat.eqb_spec i j); [contradiction|]. exists oa, ob, both. split; auto. exists l. auto.
      + destruct R1 as (-> & -> & Re).
        destruct (clear_h h1 (HMap (hm_len m) None) _ So1) as (h2 & Ec & _ & So2 & F2 & _). rewrite Ec. cbn [bind].
        destruct (clear_h h2 (HMap (hm_len m2) None) _ So2) as (h3 & Ec3 & _ & So3 & F3 & _). rewrite Ec3. cbn [bind].
        eexists _, _, _, _, (set_nth j avl_new (set_nth i avl_new st)), (set_nth j [] (set_nth i [] ls)). split; [reflexivity|]. split; auto.
        split; [apply Hw; auto using new_mapped; eapply frame_trans; [exact F1|]; eapply frame_trans; eauto|].
        split; [repeat apply Forall2_set; auto; apply isany_new|]. split; [destruct Re; [left; left|right]; assumption|]. split; auto.
    - eapply (combines_t _ _ _ _ _ _ I R Sm true true (fun _ rhs => Some rhs)); [reflexivity| |].
      + intros [N|N]; cbn; rewrite N; auto. destruct (nth_error ls i); auto.
      + intros la lb n' oa ob both l N1 N2 P X. cbn. rewrite N1, N2. exists oa, ob, both. split; [exact P|]. split; [reflexivity|]. exists l. split; [reflexivity|].
        rewrite X. unfold merged. rewrite flat_one. apply Permutation_app_head. symmetry. apply P.
    - eapply (combines_t _ _ _ _ _ _ I R Sm false false (fun lhs _ => Some lhs)); [reflexivity| |].
      + intros [N|N]; cbn; rewrite N; auto. destruct (nth_error ls i); auto.
      + intros la lb n' oa ob both l N1 N2 P X. cbn. rewrite N1, N2. exists oa, ob, both. split; [exact P|]. split; [reflexivity|]. exists l. split; [reflexivity|].
        rewrite X. unfold merged. now rewrite flat_one.
    - eapply (combines_t _ _ _ _ _ _ I R Sm true false (fun _ _ => None)); [reflexivity| |].
      + intros [N|N]; cbn; rewrite N; auto. destruct (nth_error ls i); auto.
      + intros la lb n' oa ob both l N1 N2 P X. cbn. rewrite N1, N2. exists oa, ob, both. split; [exact P|]. split; [reflexivity|]. exists l. split; [reflexivity|].
        rewrite X. unfold merged. rewrite flat_none. now rewrite app_nil_r.
    - eapply (combines_t _ _ _ _ _ _ I R Sm true true (fun _ _ => None)); [reflexivity| |].
      + intros [N|N]; cbn; rewrite N; auto. destruct (nth_error ls i); auto.
      + intros la lb n' oa ob both l N1 N2 P X. cbn. rewrite N1, N2. exists oa, ob, both. split; [exact P|]. split; [reflexivity|]. exists l. split; [reflexivity|].
        rewrite X. unfold merged. rewrite flat_none. now rewrite ?app_nil_r.
  Qed.
End AskStep.
