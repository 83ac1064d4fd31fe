(** Drops and clones of nodes of the array-based B-tree. *)
From Coq Require Import List PeanoNat Bool Lia Permutation.
From Verif Require Import Base Spec Vec BTreeProofs FixedModel FixedIterModel FixedSpec FixedProofs FixedShows FixedIterProofs.
Import ListNotations.

Section Drops.
  Context {K V Q : Type} (bor : K -> Q) (cmp : Q -> Q -> comparison).
  Notation fnode := (fnode K V).
  Notation entry := (K * V)%type.

  Lemma all_init_some {A} (l : list A) : all_init (map Some l) = Ok l.
  Proof. induction l as [|x l IH]; cbn [map all_init]; auto. now rewrite IH. Qed.
  Lemma begins_firstn {A} n (s : list (option A)) l : begins n s l -> firstn (length l) s = map Some l.
  Proof. now intros [_ E]. Qed.
  Lemma el_clear_ok (ks : list (option K)) (vs : list (option V)) (es : list entry) : length es <= 11 ->
    begins 11 ks (map fst es) -> begins 11 vs (map snd es) ->
    exists e, el_clear (Elems ks vs (length es)) = Ok (es, e).
  Proof.
    intros L [_ Ek] [_ Ev]. rewrite map_length in *. unfold el_clear. cbn [el_len el_keys el_vals].
    rewrite Ek, Ev, !all_init_some. cbn [bind]. change MAX_OCCUPANCY with 11.
    destruct (Nat.leb_spec (length es) 11); [|lia]. cbn [assert_ bind]. eexists. f_equal. f_equal.
    clear. induction es as [|[k v] es IH]; cbn; auto. now rewrite IH.
  Qed.

  Section Un.
    Context (un : fnode -> bool).
    Fixpoint drop_kids (ps : list (option fnode)) (cnt : nat) {struct ps} : res (list entry) :=
      match ps, cnt with
      | _, O => Ok []
      | Some c :: ps', S cnt' =>
        a <- (if un c then fn_drop un c else Ok []);; b <- drop_kids ps' cnt';; Ok (a ++ b)
      | _, S _ => Panic
      end.
    Lemma fn_drop_eq e d : fn_drop un (FNode e d) =
      ('(es, _) <- el_clear e;;
       ds <- match d with None => Ok [] | Some (Kids ps len) => drop_kids ps len end;; Ok (es ++ ds)).
    Proof. reflexivity. Qed.
    Lemma drop_kids_cons ps (ns : list fnode) : firstn (length ns) ps = map Some ns ->
      drop_kids ps (length ns) = fold_right (fun c r => a <- (if un c then fn_drop un c else Ok []);; b <- r;; Ok (a ++ b)) (Ok []) ns.
    Proof.
      revert ps. induction ns as [|c ns IH]; intros ps E; cbn [length fold_right].
      - now destruct ps as [|[] ps].
      - destruct ps as [|o ps]; [discriminate|]. cbn in E. injection E as -> E. cbn [drop_kids]. now rewrite IH.
    Qed.

    Lemma interleave_perm {A} : forall (ls : list (list A)) es, length ls = S (length es) ->
      Permutation (es ++ concat ls) (interleave ls es).
    Proof.
      intros ls es L. rewrite interleave_weave by lia. revert es L. induction ls as [|l ls IH]; intros es L; [discriminate|].
      destruct es as [|e es]; [destruct ls; [|discriminate]; cbn; auto|]. cbn [length] in L.
      change (weave (l :: ls) (e :: es)) with (l ++ e :: weave ls es). rewrite <- (IH es) by lia. cbn [concat app].
      rewrite <- (Permutation_middle l). constructor. rewrite !app_assoc. apply Permutation_app_tail, Permutation_app_comm.
    Qed.

    Lemma fn_drop_ok h : forall lo n l, holds lo h n l ->
      exists ds left, fn_drop un n = Ok ds /\ Permutation (ds ++ left) l /\ ((forall n, un n = true) -> left = []).
    Proof.
      induction h as [|h IH]; intros lo n l H.
      - inversion H as [lo' ks vs es B Hk Hv|]; subst. destruct (el_clear_ok ks vs l) as (e & E); auto; [lia|].
        rewrite fn_drop_eq, E. cbn [bind]. rewrite app_nil_r. exists l, []. rewrite app_nil_r. auto.
      - inversion H as [|lo' h' ks vs ps es ns ls B Hk Hv Ln Hp F]; subst.
        destruct (el_clear_ok ks vs es) as (e & E); auto; [lia|]. rewrite fn_drop_eq, E. cbn [bind].
        rewrite drop_kids_cons by (now apply begins_firstn in Hp).
        assert (X : exists ds left, fold_right (fun c r => a <- (if un c then fn_drop un c else Ok []);; b <- r;; Ok (a ++ b)) (Ok []) ns = Ok ds
          /\ Permutation (ds ++ left) (concat ls) /\ ((forall n, un n = true) -> left = [])).
        { clear -F IH. induction F as [|n l ns ls Hn F IHF]; cbn [fold_right concat]; [exists [], []; auto|].
          destruct IHF as (ds & left & -> & P & U). destruct (IH 5 n l Hn) as (ds1 & left1 & E1 & P1 & U1).
          destruct (un n) eqn:En; cbn [bind].
          - rewrite E1. cbn [bind]. exists (ds1 ++ ds), (left1 ++ left). split; auto. split.
            + rewrite <- P, <- P1, <- !app_assoc. apply Permutation_app_head. rewrite !app_assoc. apply Permutation_app_tail, Permutation_app_comm.
            + intros A. now rewrite U1, U.
          - exists ds, (left ++ l). split; auto. split; [|congruence]. rewrite app_assoc, P. apply Permutation_app_comm. }
        destruct X as (ds & left & -> & P & U). cbn [bind]. exists (es ++ ds), left. split; auto. split; auto.
        rewrite <- app_assoc, P. apply interleave_perm. rewrite <- (Forall2_len _ _ _ F). lia.
    Qed.
  End Un.

  Lemma f_drop_l un (m : f_map K V) l : f_shows bor cmp m l -> exists ds left, f_drop un (fm_root m) = Ok ds
    /\ Permutation (ds ++ left) l /\ ((forall n, un n = true) -> left = []).
  Proof.
    intros (_ & _ & R). unfold f_drop. destruct (fm_root m) as [n|].
    - destruct R as [h R]. destruct (un n) eqn:E.
      + now apply (fn_drop_ok un h 1).
      + exists [], l. split; auto. split; auto. intros A. congruence.
    - subst l. exists [], []. auto.
  Qed.

  Lemma clone_slots_ok {A} n : forall (s : list (option A)) l, begins n s l -> exists s', clone_slots (length l) s = Ok s' /\ begins n s' l.
  Proof.
    intros s l [L E]. revert n s L E. induction l as [|x l IH]; intros n s L E; cbn [length clone_slots].
    - eexists. split; [reflexivity|]. split; auto. unfold uninit. now rewrite repeat_length.
    - destruct s as [|o s]; [discriminate|]. cbn in E. injection E as -> E. destruct (IH (length s) s eq_refl E) as (s' & -> & L' & E').
      cbn [bind]. eexists. split; [reflexivity|]. cbn [length] in *. split; cbn [length firstn map]; congruence.
  Qed.
  Lemma fn_clone_ok lo h (n : fnode) l : holds lo h n l -> exists n', fn_clone n = Ok n' /\ holds lo h n' l.
  Proof.
    intros H. destruct H as [lo ks vs es B Hk Hv|lo h ks vs ps es ns ls B Hk Hv Ln Hp F]; unfold fn_clone, cell_clone; cbn [el_len el_keys el_vals].
    - destruct (clone_slots_ok 11 ks _ Hk) as (ks' & Ek & Hk'). destruct (clone_slots_ok 11 vs _ Hv) as (vs' & Ev & Hv').
      rewrite map_length in Ek, Ev. rewrite Ek, Ev. cbn [bind]. eexists. split; [reflexivity|]. now constructor.
    - destruct (clone_slots_ok 11 ks _ Hk) as (ks' & Ek & Hk'). destruct (clone_slots_ok 11 vs _ Hv) as (vs' & Ev & Hv').
      destruct (clone_slots_ok 12 ps _ Hp) as (ps' & Ep & Hp').
      rewrite map_length in Ek, Ev. cbn [kd_len kd_ptrs]. rewrite Ek, Ev, Ep. cbn [bind]. eexists. split; [reflexivity|]. now constructor.
  Qed.
End Drops.
