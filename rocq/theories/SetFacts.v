(** A set is a map to [unit]: how the specification of sets sits inside that of
    maps; and what merging two ascending lists yields. *)
From Coq Require Import List Bool Sorted ZArith Lia NArith.
From Verif Require Import Base Spec MapSpec SpecFacts SetSpec SetOpModel AvlMapProofs AvlHistProofs.
Import ListNotations.
Local Open Scope nat_scope.

Section Tag.
  Context {T Q : Type} (bor : T -> Q) (cmp : Q -> Q -> comparison) (laws : order_laws cmp).
  Definition tag1 (x : T) : T * unit := (x, tt).
  Definition tag (l : list T) : list (T * unit) := map tag1 l.
  Notation asc := (@ascending T unit Q bor cmp).
  Notation xasc := (@x_ascending T Q bor cmp).

  Lemma untag (l : list (T * unit)) : tag (map fst l) = l.
  Proof. induction l as [|[x []] l IH]; cbn; [reflexivity|]. unfold tag in IH. now rewrite IH. Qed.
  Lemma tag_fst l : map fst (tag l) = l.
  Proof. unfold tag. rewrite map_map. cbn. apply map_id. Qed.
  Lemma tag_inj l r : tag l = tag r -> l = r.
  Proof. intros H. rewrite <- (tag_fst l), <- (tag_fst r). now rewrite H. Qed.
  Lemma tag_length l : length (tag l) = length l.
  Proof. apply map_length. Qed.
  Lemma tag_filter f l : filter f (tag l) = tag (filter (fun x => f (tag1 x)) l).
  Proof. induction l as [|x l IH]; cbn; auto. destruct (f (tag1 x)); cbn; unfold tag in IH; now rewrite IH. Qed.
  Lemma tag_asc l : asc (tag l) <-> xasc l.
  Proof.
    unfold ascending, x_ascending. induction l as [|x l IH]; cbn.
    - split; constructor.
    - split; intros H; inversion H as [|? ? H1 H2]; subst; constructor; try now apply IH.
      + rewrite Forall_forall in *. intros y Hy. apply (H2 (tag1 y)). now apply in_map.
      + rewrite Forall_forall in *. intros y Hy. apply in_map_iff in Hy as (z & <- & Hz). apply (H2 z Hz).
  Qed.
  Lemma tag_find q l : s_find bor cmp q (tag l) = option_map tag1 (x_find bor cmp q l).
  Proof.
    unfold s_find, x_find. induction l as [|x l IH]; cbn; auto.
    unfold eq_q at 1, x_eq at 1. cbn [fst tag1]. destruct (cmp (bor x) q); auto.
  Qed.
  Lemma tag_find_fst q l : option_map fst (s_find bor cmp q (tag l)) = x_find bor cmp q l.
  Proof. rewrite tag_find. now destruct (x_find bor cmp q l). Qed.
  Lemma tag_mem q l : s_mem bor cmp q (tag l) = x_mem bor cmp q l.
  Proof. unfold s_mem, x_mem. induction l as [|x l IH]; auto. cbn [existsb tag map]. unfold tag in IH. now rewrite IH. Qed.
  Lemma tag_get q l : is_some (s_get bor cmp q (tag l)) = x_mem bor cmp q l.
  Proof. rewrite <- tag_mem, mem_find. unfold s_get. now destruct (s_find bor cmp q (tag l)). Qed.
  Lemma tag_insert x u l : s_insert bor cmp x u (tag l) = tag (x_insert bor cmp x l).
  Proof.
    unfold s_insert, x_insert. rewrite !tag_filter. destruct u. unfold tag. rewrite map_app. reflexivity.
  Qed.
  Lemma tag_remove q l : s_remove bor cmp q (tag l) = tag (x_remove bor cmp q l).
  Proof. unfold s_remove. now rewrite tag_filter. Qed.
  Lemma tag_extend xs : forall l, s_extend bor cmp (tag l) (tag xs) = tag (x_extend bor cmp l xs).
  Proof.
    induction xs as [|x xs IH]; intros l; auto. unfold x_extend, s_extend. cbn [fold_left tag map fst snd].
    change (map tag1 xs) with (tag xs). cbn [tag1 fst snd]. rewrite tag_insert. apply IH.
  Qed.
  Lemma tag_range lo hi l : s_range bor cmp lo hi (tag l) = tag (x_range bor cmp lo hi l).
  Proof. unfold s_range. rewrite tag_filter. reflexivity. Qed.
  Lemma tag_inter l r : s_inter bor cmp (tag l) (tag r) = tag (x_inter bor cmp l r).
  Proof. unfold s_inter, x_inter. rewrite tag_filter. f_equal. apply filter_ext. intros x. apply tag_mem. Qed.
  Lemma tag_diff l r : s_diff bor cmp (tag l) (tag r) = tag (x_diff bor cmp l r).
  Proof. unfold s_diff, x_diff. rewrite tag_filter. f_equal. apply filter_ext. intros x. now rewrite tag_mem. Qed.
  Lemma tag_union l r : s_union bor cmp (tag l) (tag r) = tag (x_union bor cmp l r).
  Proof. apply tag_extend. Qed.
  Lemma tag_symdiff l r : s_symdiff bor cmp (tag l) (tag r) = tag (x_symdiff bor cmp l r).
  Proof. unfold s_symdiff, x_symdiff. now rewrite !tag_diff, tag_extend. Qed.
  Lemma tag_tl l : tl (tag l) = tag (tl l).
  Proof. now destruct l. Qed.
  Lemma tag_removelast l : removelast (tag l) = tag (removelast l).
  Proof. induction l as [|x [|y l] IH]; auto. cbn [tag map removelast] in *. now rewrite IH. Qed.
  Lemma tag_hd l : option_map fst (hd_error (tag l)) = hd_error l.
  Proof. now destruct l. Qed.
  Lemma tag_rev l : rev (tag l) = tag (rev l).
  Proof. unfold tag. symmetry. apply map_rev. Qed.
  Definition fst_item (x : option (T * unit) * nat) : option T * nat := (option_map fst (fst x), snd x).
  Lemma tag_ends cs : forall l, map fst_item (s_ends cs (tag l)) = s_ends cs l.
  Proof.
    induction cs as [|[] cs IH]; intros l; cbn [s_ends map]; auto.
    - rewrite tag_tl, IH. unfold fst_item at 1. cbn [fst snd]. now rewrite tag_hd, tag_length.
    - rewrite tag_removelast, IH. unfold fst_item at 1. cbn [fst snd]. now rewrite tag_rev, tag_hd, tag_length.
  Qed.
  Lemma tag_seq_eqb teq l : forall r, seq_eqb teq (fun _ _ => true) (tag l) (tag r) = x_seq_eqb teq l r.
  Proof.
    induction l as [|x l IH]; intros [|y r]; cbn; auto. unfold tag in IH. now rewrite IH, andb_true_r.
  Qed.
  Lemma tag_seq_cmp tc l : forall r, seq_cmp tc (fun _ _ => Eq) (tag l) (tag r) = x_seq_cmp tc l r.
  Proof. induction l as [|x l IH]; intros [|y r]; cbn; auto. unfold tag in IH. now rewrite IH. Qed.
  Lemma tag_small l : small (tag l) <-> x_small l.
  Proof. unfold small, x_small. now rewrite tag_length. Qed.

  (** *** Facts about sets, from those about maps *)
  Notation fnd := (@x_find T Q bor cmp).
  Notation mem := (@x_mem T Q bor cmp).

  Lemma xmem_find q l : mem q l = is_some (fnd q l).
  Proof. rewrite <- tag_mem, mem_find, tag_find. now destruct (fnd q l). Qed.
  Lemma xmem_iff q l : mem q l = true <-> exists x, In x l /\ cmp (bor x) q = Eq.
  Proof.
    unfold x_mem. rewrite existsb_exists. unfold x_eq. split; intros (x & Hx & E); exists x; split; auto;
      destruct (cmp (bor x) q); congruence.
  Qed.
  Lemma xfind_some q l x : fnd q l = Some x -> In x l /\ cmp (bor x) q = Eq.
  Proof.
    intros H. apply find_some in H as [H1 H2]. split; auto. unfold x_eq in H2. destruct (cmp (bor x) q); congruence.
  Qed.
  Lemma xasc_cons_iff x l : xasc (x :: l) <-> xasc l /\ forall y, In y l -> cmp (bor x) (bor y) = Lt.
  Proof.
    split.
    - intros H. inversion H as [|? ? H1 H2]; subst. rewrite Forall_forall in H2. auto.
    - intros [H1 H2]. constructor; auto. now apply Forall_forall.
  Qed.
  Lemma xasc_ext l r : xasc l -> xasc r -> (forall q, fnd q l = fnd q r) -> l = r.
  Proof.
    intros Hl Hr H. apply tag_inj. apply (asc_find_ext bor cmp laws); try now apply tag_asc.
    intros q. now rewrite !tag_find, H.
  Qed.
  Lemma xasc_filter f l : xasc l -> xasc (filter f l).
  Proof.
    induction l as [|x l IH]; cbn; auto. rewrite xasc_cons_iff. intros [H1 H2].
    destruct (f x); auto. apply xasc_cons_iff. split; auto. intros y Hy. apply filter_In in Hy as [Hy _]. auto.
  Qed.
  Lemma xasc_extend l xs : xasc l -> xasc (x_extend bor cmp l xs).
  Proof. rewrite <- !tag_asc, <- tag_extend. apply (asc_extend bor cmp laws). Qed.
  Lemma xfind_eq_q q q' l : cmp q q' = Eq -> fnd q l = fnd q' l.
  Proof.
    intros H. rewrite <- !tag_find_fst. now rewrite (fnd_eq_q bor cmp laws q q' _ H).
  Qed.
  Lemma xmem_eq_q q q' l : cmp q q' = Eq -> mem q l = mem q' l.
  Proof. intros H. now rewrite !xmem_find, (xfind_eq_q q q' l H). Qed.
  Lemma xfind_union q l r : xasc l -> xasc r ->
    fnd q (x_union bor cmp l r) = match fnd q r with Some x => Some x | None => fnd q l end.
  Proof.
    intros Hl Hr. rewrite <- tag_find_fst, <- tag_union. unfold s_union.
    rewrite (find_extend bor cmp laws) by (now apply tag_asc). rewrite !tag_find.
    destruct (fnd q r); auto. now destruct (fnd q l).
  Qed.
  Lemma xfind_diff q l r : xasc l ->
    fnd q (x_diff bor cmp l r) = match fnd q r with Some _ => None | None => fnd q l end.
  Proof.
    intros Hl. rewrite <- tag_find_fst, <- tag_diff.
    rewrite (find_diff bor cmp laws) by (now apply tag_asc). rewrite !tag_find.
    destruct (fnd q r); auto. now destruct (fnd q l).
  Qed.
  Lemma xfind_symdiff q l r : xasc l -> xasc r ->
    fnd q (x_symdiff bor cmp l r) =
    match fnd q l, fnd q r with Some x, None => Some x | None, Some x => Some x | _, _ => None end.
  Proof.
    intros Hl Hr. rewrite <- tag_find_fst, <- tag_symdiff.
    rewrite (find_symdiff bor cmp laws) by (now apply tag_asc). rewrite !tag_find.
    destruct (fnd q r); destruct (fnd q l); auto.
  Qed.
  Lemma xfind_inter q l r : xasc l ->
    fnd q (x_inter bor cmp l r) = match fnd q r with Some _ => fnd q l | None => None end.
  Proof.
    intros Hl. rewrite <- tag_find_fst, <- tag_inter. unfold s_inter.
    rewrite (find_filter_mem bor cmp laws); [|now apply tag_asc|intros a b H; now rewrite (mem_eq_q bor cmp laws _ _ _ H)].
    rewrite tag_find. destruct (fnd q l) as [x|] eqn:E; cbn [option_map].
    - apply xfind_some in E as [_ E]. cbn [tag1 fst]. rewrite (mem_eq_q bor cmp laws _ q _ E), tag_mem, xmem_find.
      now destruct (fnd q r).
    - now destruct (fnd q r).
  Qed.
  Lemma xasc_union l r : xasc l -> xasc (x_union bor cmp l r).
  Proof. apply xasc_extend. Qed.
  Lemma xasc_symdiff l r : xasc l -> xasc (x_symdiff bor cmp l r).
  Proof. intros H. apply xasc_extend, xasc_filter, H. Qed.
  Lemma xfind_none_lt l x q : (forall y, In y l -> cmp (bor x) (bor y) = Lt) -> cmp (bor x) q = Eq -> fnd q l = None.
  Proof.
    intros H E. destruct (fnd q l) as [y|] eqn:F; auto. apply xfind_some in F as [Hy Fy].
    specialize (H y Hy). rewrite (cmp_eq_l _ laws _ _ _ E) in H.
    rewrite (cmp_opp _ laws (bor y) q), Fy in H. discriminate.
  Qed.

  (** *** Merging *)
  Definition mrg : list T -> list T -> list (option T * option T) :=
    fix mrg l := fix aux r :=
      match l, r with
      | [], _ => map (fun y => (None, Some y)) r
      | _, [] => map (fun x => (Some x, None)) l
      | x :: l', y :: r' =>
        match cmp (bor x) (bor y) with
        | Lt => (Some x, None) :: mrg l' r
        | Eq => (Some x, Some y) :: mrg l' r'
        | Gt => (None, Some y) :: aux r'
        end
      end.
  Lemma mrg_cons x l y r : mrg (x :: l) (y :: r) =
    match cmp (bor x) (bor y) with
    | Lt => (Some x, None) :: mrg l (y :: r)
    | Eq => (Some x, Some y) :: mrg l r
    | Gt => (None, Some y) :: mrg (x :: l) r
    end.
  Proof. reflexivity. Qed.
  Lemma mrg_nil_l r : mrg [] r = map (fun y => (None, Some y)) r.
  Proof. now destruct r. Qed.
  Lemma mrg_nil_r l : mrg l [] = map (fun x => (Some x, None)) l.
  Proof. now destruct l. Qed.

  (** What [SetOpIter] yields for a merged pair. *)
  Definition pick (P : BinNums.N) (ab : option T * option T) : list T :=
    match ab with
    | (None, Some y) => if flag P RightSolo then [y] else []
    | (Some x, None) => if flag P LeftSolo then [x] else []
    | (Some x, Some y) => if flag P Common then [y] else []
    | (None, None) => []
    end.
  Definition kept P l r : list T := flat_map (pick P) (mrg l r).

  Lemma mrg_ind (R : list T -> list T -> Prop) :
    (forall r, R [] r) -> (forall l, R l []) ->
    (forall x l y r, cmp (bor x) (bor y) = Lt -> R l (y :: r) -> R (x :: l) (y :: r)) ->
    (forall x l y r, cmp (bor x) (bor y) = Eq -> R l r -> R (x :: l) (y :: r)) ->
    (forall x l y r, cmp (bor x) (bor y) = Gt -> R (x :: l) r -> R (x :: l) (y :: r)) ->
    forall l r, R l r.
  Proof.
    intros H1 H2 H3 H4 H5. induction l as [|x l IH]; auto.
    induction r as [|y r IHr]; auto. destruct (cmp (bor x) (bor y)) eqn:E; auto.
  Qed.

  Lemma kept_in P l r z : In z (kept P l r) -> In z l \/ In z r.
  Proof.
    unfold kept. revert l r. apply (mrg_ind (fun l r => In z (flat_map (pick P) (mrg l r)) -> In z l \/ In z r)).
    - intros r H. rewrite mrg_nil_l in H. apply in_flat_map in H as (ab & H & H').
      apply in_map_iff in H as (y & <- & Hy). cbn in H'. destruct (flag P RightSolo); destruct H'; subst; auto; contradiction.
    - intros l H. rewrite mrg_nil_r in H. apply in_flat_map in H as (ab & H & H').
      apply in_map_iff in H as (y & <- & Hy). cbn in H'. destruct (flag P LeftSolo); destruct H'; subst; auto; contradiction.
    - intros x l y r E IH H. rewrite mrg_cons, E in H. cbn in H. apply in_app_or in H as [H|H].
      + destruct (flag P LeftSolo); destruct H; subst; [left; now left|contradiction].
      + destruct (IH H); auto. left; now right.
    - intros x l y r E IH H. rewrite mrg_cons, E in H. cbn in H. apply in_app_or in H as [H|H].
      + destruct (flag P Common); destruct H; subst; [right; now left|contradiction].
      + destruct (IH H); [left|right]; now right.
    - intros x l y r E IH H. rewrite mrg_cons, E in H. cbn in H. apply in_app_or in H as [H|H].
      + destruct (flag P RightSolo); destruct H; subst; [right; now left|contradiction].
      + destruct (IH H); auto. right; now right.
  Qed.

  Lemma kept_nil_l P r : kept P [] r = if flag P RightSolo then r else [].
  Proof.
    unfold kept. rewrite mrg_nil_l. induction r as [|y r IH]; cbn; [now destruct (flag P RightSolo)|].
    rewrite IH. now destruct (flag P RightSolo).
  Qed.
  Lemma kept_nil_r P l : kept P l [] = if flag P LeftSolo then l else [].
  Proof.
    unfold kept. rewrite mrg_nil_r. induction l as [|y r IH]; cbn; [now destruct (flag P LeftSolo)|].
    rewrite IH. now destruct (flag P LeftSolo).
  Qed.

  Lemma kept_asc P l r : xasc l -> xasc r -> xasc (kept P l r).
  Proof.
    revert l r. apply (mrg_ind (fun l r => xasc l -> xasc r -> xasc (kept P l r))).
    - intros r _ H. rewrite kept_nil_l. destruct (flag P RightSolo); auto. constructor.
    - intros l H _. rewrite kept_nil_r. destruct (flag P LeftSolo); auto. constructor.
    - intros x l y r E IH Hl Hr. unfold kept. rewrite mrg_cons, E. cbn [flat_map pick]. fold (kept P l (y :: r)).
      pose proof Hr as Hr'. apply xasc_cons_iff in Hl as [Hl Hx]. apply xasc_cons_iff in Hr' as [_ Hy].
      destruct (flag P LeftSolo); cbn [app]; auto. apply xasc_cons_iff. split; auto.
      intros z Hz. apply kept_in in Hz as [Hz|[<-|Hz]]; auto. eapply (cmp_lt_trans _ laws); eauto.
    - intros x l y r E IH Hl Hr. unfold kept. rewrite mrg_cons, E. cbn [flat_map pick]. fold (kept P l r).
      apply xasc_cons_iff in Hl as [Hl Hx]. apply xasc_cons_iff in Hr as [Hr Hy].
      destruct (flag P Common); cbn [app]; auto. apply xasc_cons_iff. split; auto.
      intros z Hz. apply kept_in in Hz as [Hz|Hz]; auto.
      rewrite <- (cmp_eq_l _ laws _ _ _ E). auto.
    - intros x l y r E IH Hl Hr. unfold kept. rewrite mrg_cons, E. cbn [flat_map pick]. fold (kept P (x :: l) r).
      pose proof Hl as Hl'. apply xasc_cons_iff in Hl' as [_ Hx]. apply xasc_cons_iff in Hr as [Hr Hy].
      apply (cmp_gt_lt laws) in E.
      destruct (flag P RightSolo); cbn [app]; auto. apply xasc_cons_iff. split; auto.
      intros z Hz. apply kept_in in Hz as [[<-|Hz]|Hz]; auto. eapply (cmp_lt_trans _ laws); eauto.
  Qed.

  Lemma xfind_cons q x l : fnd q (x :: l) = match cmp (bor x) q with Eq => Some x | _ => fnd q l end.
  Proof. unfold x_find. cbn. unfold x_eq at 1. now destruct (cmp (bor x) q). Qed.

  Lemma kept_find P q l r : xasc l -> xasc r ->
    fnd q (kept P l r) =
    match fnd q l, fnd q r with
    | Some _, Some y => if flag P Common then Some y else None
    | Some x, None => if flag P LeftSolo then Some x else None
    | None, Some y => if flag P RightSolo then Some y else None
    | None, None => None
    end.
  Proof.
    revert l r.
    apply (mrg_ind (fun l r => xasc l -> xasc r -> fnd q (kept P l r) =
      match fnd q l, fnd q r with
      | Some _, Some y => if flag P Common then Some y else None
      | Some x, None => if flag P LeftSolo then Some x else None
      | None, Some y => if flag P RightSolo then Some y else None
      | None, None => None
      end)).
    - intros r _ H. rewrite kept_nil_l. cbn [x_find find]. change (find (x_eq bor cmp q) r) with (fnd q r).
      destruct (flag P RightSolo); cbn; destruct (fnd q r); auto.
    - intros l H _. rewrite kept_nil_r. change (fnd q []) with (@None T).
      destruct (flag P LeftSolo); cbn [x_find find]; destruct (fnd q l); auto.
    - intros x l y r E IH Hl Hr. unfold kept. rewrite mrg_cons, E. cbn [flat_map pick]. fold (kept P l (y :: r)).
      pose proof Hr as Hr'. apply xasc_cons_iff in Hl as [Hl Hx]. apply xasc_cons_iff in Hr' as [_ Hy].
      specialize (IH Hl Hr).
      rewrite (xfind_cons q x l).
      destruct (cmp (bor x) q) eqn:Eq1.
      + assert (Nl : fnd q l = None) by (now apply (xfind_none_lt l x q)).
        assert (Nr : fnd q (y :: r) = None).
        { apply (xfind_none_lt (y :: r) x q); auto. intros z [<-|Hz]; auto. eapply (cmp_lt_trans _ laws); eauto. }
        rewrite Nl, Nr in IH. rewrite Nr.
        destruct (flag P LeftSolo); cbn [app]; auto. now rewrite xfind_cons, Eq1.
      + destruct (flag P LeftSolo); cbn [app]; auto. now rewrite xfind_cons, Eq1.
      + destruct (flag P LeftSolo); cbn [app]; auto. now rewrite xfind_cons, Eq1.
    - intros x l y r E IH Hl Hr. unfold kept. rewrite mrg_cons, E. cbn [flat_map pick]. fold (kept P l r).
      apply xasc_cons_iff in Hl as [Hl Hx]. apply xasc_cons_iff in Hr as [Hr Hy]. specialize (IH Hl Hr).
      rewrite (xfind_cons q x l), (xfind_cons q y r). rewrite (cmp_eq_l _ laws _ _ q E).
      destruct (cmp (bor y) q) eqn:Eq1.
      + assert (Nl : fnd q l = None).
        { apply (xfind_none_lt l x q); auto. now rewrite (cmp_eq_l _ laws _ _ q E). }
        assert (Nr : fnd q r = None) by (now apply (xfind_none_lt r y q)).
        rewrite Nl, Nr in IH.
        destruct (flag P Common); cbn [app]; auto. now rewrite xfind_cons, Eq1.
      + destruct (flag P Common); cbn [app]; auto. now rewrite xfind_cons, Eq1.
      + destruct (flag P Common); cbn [app]; auto. now rewrite xfind_cons, Eq1.
    - intros x l y r E IH Hl Hr. unfold kept. rewrite mrg_cons, E. cbn [flat_map pick]. fold (kept P (x :: l) r).
      pose proof Hl as Hl'. apply xasc_cons_iff in Hl' as [_ Hx]. apply xasc_cons_iff in Hr as [Hr Hy].
      specialize (IH Hl Hr). apply (cmp_gt_lt laws) in E.
      rewrite (xfind_cons q y r).
      destruct (cmp (bor y) q) eqn:Eq1.
      + assert (Nr : fnd q r = None) by (now apply (xfind_none_lt r y q)).
        assert (Nl : fnd q (x :: l) = None).
        { apply (xfind_none_lt (x :: l) y q); auto. intros z [<-|Hz]; auto. eapply (cmp_lt_trans _ laws); eauto. }
        rewrite Nl, Nr in IH. rewrite Nl.
        destruct (flag P RightSolo); cbn [app]; auto. now rewrite xfind_cons, Eq1.
      + destruct (flag P RightSolo); cbn [app]; auto. now rewrite xfind_cons, Eq1.
      + destruct (flag P RightSolo); cbn [app]; auto. now rewrite xfind_cons, Eq1.
  Qed.

  Lemma kept_union l r : xasc l -> xasc r -> kept p_union l r = x_union bor cmp l r.
  Proof.
    intros Hl Hr. apply xasc_ext; [now apply kept_asc|now apply xasc_union|].
    intros q. rewrite kept_find, xfind_union by auto. cbn. now destruct (fnd q l), (fnd q r).
  Qed.
  Lemma kept_inter l r : xasc l -> xasc r -> kept p_intersection l r = x_inter bor cmp r l.
  Proof.
    intros Hl Hr. apply xasc_ext; [now apply kept_asc|now apply xasc_filter|].
    intros q. rewrite kept_find, xfind_inter by auto. cbn. now destruct (fnd q l), (fnd q r).
  Qed.
  Lemma kept_diff l r : xasc l -> xasc r -> kept p_difference l r = x_diff bor cmp l r.
  Proof.
    intros Hl Hr. apply xasc_ext; [now apply kept_asc|now apply xasc_filter|].
    intros q. rewrite kept_find, xfind_diff by auto. cbn. now destruct (fnd q l), (fnd q r).
  Qed.
  Lemma kept_symdiff l r : xasc l -> xasc r -> kept p_symmetric_difference l r = x_symdiff bor cmp l r.
  Proof.
    intros Hl Hr. apply xasc_ext; [now apply kept_asc|now apply xasc_symdiff|].
    intros q. rewrite kept_find, xfind_symdiff by auto. cbn. now destruct (fnd q l), (fnd q r).
  Qed.

  Lemma subset_diff l r : x_subset bor cmp l r = match x_diff bor cmp l r with [] => true | _ => false end.
  Proof.
    unfold x_subset, x_diff. induction l as [|x l IH]; cbn; auto.
    destruct (mem (bor x) r); cbn; auto.
  Qed.
  Lemma disjoint_inter l r : x_disjoint bor cmp l r = match x_inter bor cmp l r with [] => true | _ => false end.
  Proof.
    unfold x_disjoint, x_inter. induction l as [|x l IH]; cbn; auto.
    destruct (mem (bor x) r); cbn; auto.
  Qed.
  Lemma disjoint_sym l r : x_disjoint bor cmp l r = x_disjoint bor cmp r l.
  Proof.
    assert (G : forall l r, x_disjoint bor cmp l r = true -> x_disjoint bor cmp r l = true).
    { clear l r. intros l r H. unfold x_disjoint in *. rewrite forallb_forall in *. intros y Hy.
      apply negb_true_iff. destruct (mem (bor y) l) eqn:E; auto. apply xmem_iff in E as (x & Hx & E).
      specialize (H x Hx). apply negb_true_iff in H. exfalso.
      assert (M : mem (bor x) r = true) by (apply xmem_iff; exists y; split; auto; now apply (cmp_eq_sym laws)).
      congruence. }
    destruct (x_disjoint bor cmp l r) eqn:E1, (x_disjoint bor cmp r l) eqn:E2; auto.
    - apply G in E1. congruence.
    - apply G in E2. congruence.
  Qed.

  (** *** The iterator *)
  Section Iter.
    Context {I : Type} (nxt : I -> res (option T * I)) (left : I -> nat).
    (** The iterator yields [l] and then [None]. *)
    Fixpoint gives (l : list T) (i : I) : Prop :=
      length l <= left i /\
      exists i', nxt i = Ok (hd_error l, i') /\ match l with [] => True | _ :: l' => gives l' i' end.
    Definition pgives (l : list T) (p : @peekable I T) : Prop :=
      match pk_peeked p with
      | None => gives l (pk_iter p)
      | Some None => l = []
      | Some (Some x) => exists l', l = x :: l' /\ gives l' (pk_iter p)
      end.
    Lemma pgives_left l p : pgives l p -> length l <= pk_left left p.
    Proof.
      unfold pgives, pk_left. destruct p as [i [[x|]|]]; cbn.
      - intros (l' & -> & H). destruct l'; destruct H as [H _]; cbn [length] in *; lia.
      - intros ->. cbn. lia.
      - intros H. destruct l; destruct H as [H _]; lia.
    Qed.
    Lemma peek_ok l p : pgives l p -> exists p', pk_peek nxt p = Ok (hd_error l, p') /\ pgives l p'
      /\ pk_peeked p' = Some (hd_error l).
    Proof.
      unfold pgives, pk_peek. destruct p as [i [[x|]|]]; cbn.
      - intros (l' & -> & H). eexists. split; [reflexivity|]. cbn. eauto.
      - intros ->. eexists. split; [reflexivity|]. cbn. auto.
      - intros H. destruct l as [|x l]; destruct H as (_ & i' & E & H); rewrite E; cbn [bind];
          eexists; (split; [reflexivity|]); cbn; eauto.
    Qed.
    Lemma next_peeked x l p : pgives (x :: l) p -> pk_peeked p = Some (Some x) ->
      exists p', pk_next nxt p = Ok (Some x, p') /\ pgives l p'.
    Proof.
      unfold pgives, pk_next. intros H E. rewrite E in *. eexists. split; [reflexivity|].
      destruct H as (l' & [= ->] & H). exact H.
    Qed.

    Lemma merge_next_ok l r p1 p2 : pgives l p1 -> pgives r p2 ->
      exists p1' p2' l' r', merge_next nxt (fun x y => cmp (bor x) (bor y)) (p1, p2) = Ok (hd_error (mrg l r), (p1', p2'))
        /\ pgives l' p1' /\ pgives r' p2' /\ mrg l' r' = tl (mrg l r).
    Proof.
      intros H1 H2. unfold merge_next.
      destruct (peek_ok l p1 H1) as (q1 & -> & H1' & K1). cbn [bind].
      destruct (peek_ok r p2 H2) as (q2 & -> & H2' & K2). cbn [bind].
      destruct l as [|x l], r as [|y r]; cbn [hd_error] in *.
      - exists q1, q2, [], []. auto.
      - destruct (next_peeked y r q2 H2' K2) as (q2' & -> & G). cbn [bind].
        exists q1, q2', [], r. rewrite !mrg_nil_l. auto.
      - destruct (next_peeked x l q1 H1' K1) as (q1' & -> & G). cbn [bind].
        exists q1', q2, l, []. rewrite !mrg_nil_r. auto.
      - rewrite mrg_cons. destruct (cmp (bor x) (bor y)).
        + destruct (next_peeked x l q1 H1' K1) as (q1' & -> & G1). cbn [bind].
          destruct (next_peeked y r q2 H2' K2) as (q2' & -> & G2). cbn [bind].
          exists q1', q2', l, r. auto.
        + destruct (next_peeked x l q1 H1' K1) as (q1' & -> & G1). cbn [bind].
          exists q1', q2, l, (y :: r). auto.
        + destruct (next_peeked y r q2 H2' K2) as (q2' & -> & G2). cbn [bind].
          exists q1, q2', (x :: l), r. auto.
    Qed.

    Lemma mrg_len l r : length (mrg l r) <= length l + length r.
    Proof.
      revert l r. apply (mrg_ind (fun l r => length (mrg l r) <= length l + length r)).
      - intros r. rewrite mrg_nil_l, map_length. cbn. lia.
      - intros l. rewrite mrg_nil_r, map_length. cbn. lia.
      - intros x l y r E IH. rewrite mrg_cons, E. cbn [length] in *. lia.
      - intros x l y r E IH. rewrite mrg_cons, E. cbn [length] in *. lia.
      - intros x l y r E IH. rewrite mrg_cons, E. cbn [length] in *. lia.
    Qed.
    Lemma mrg_some l r : Forall (fun ab => ab <> (None, None)) (mrg l r).
    Proof.
      revert l r. apply (mrg_ind (fun l r => Forall (fun ab => ab <> (None, None)) (mrg l r))).
      - intros r. rewrite mrg_nil_l. apply Forall_forall. intros ab H. apply in_map_iff in H as (? & <- & _). discriminate.
      - intros r. rewrite mrg_nil_r. apply Forall_forall. intros ab H. apply in_map_iff in H as (? & <- & _). discriminate.
      - intros x l y r E IH. rewrite mrg_cons, E. constructor; auto; discriminate.
      - intros x l y r E IH. rewrite mrg_cons, E. constructor; auto; discriminate.
      - intros x l y r E IH. rewrite mrg_cons, E. constructor; auto; discriminate.
    Qed.

    Lemma setop_loop_ok P fuel : forall l r p1 p2, pgives l p1 -> pgives r p2 ->
      length (mrg l r) < fuel ->
      exists p1' p2' l' r', setop_loop nxt (fun x y => cmp (bor x) (bor y)) fuel P (p1, p2)
                            = Ok (hd_error (kept P l r), (p1', p2'))
        /\ pgives l' p1' /\ pgives r' p2' /\ kept P l' r' = tl (kept P l r).
    Proof.
      induction fuel as [|fuel IH]; intros l r p1 p2 H1 H2 Hf; [lia|]. cbn [setop_loop].
      destruct (merge_next_ok l r p1 p2 H1 H2) as (p1' & p2' & l' & r' & E & H1' & H2' & T').
      rewrite E. cbn [bind]. unfold kept at 1 3. pose proof (mrg_some l r) as Hs.
      destruct (mrg l r) as [|[a b] ms] eqn:Em; cbn [hd_error tl] in *.
      - exists p1', p2', l', r'. unfold kept. rewrite T'. auto.
      - pose proof (Forall_inv Hs) as Hab. cbn [flat_map]. rewrite <- T'. fold (kept P l' r').
        cbn [length] in Hf.
        assert (R : exists p3 p4 l3 r3, setop_loop nxt (fun x y => cmp (bor x) (bor y)) fuel P (p1', p2')
                            = Ok (hd_error (kept P l' r'), (p3, p4))
        /\ pgives l3 p3 /\ pgives r3 p4 /\ kept P l3 r3 = tl (kept P l' r')).
        { apply IH; auto. rewrite T'. lia. }
        destruct a as [a|], b as [b|]; cbn [is_none is_some negb andb pick]; [| | |congruence].
        + destruct (flag P Common); cbn [andb app]; auto. exists p1', p2', l', r'. auto.
        + destruct (flag P LeftSolo); cbn [andb app]; auto. exists p1', p2', l', r'. auto.
        + destruct (flag P RightSolo); cbn [andb app]; auto. exists p1', p2', l', r'. auto.
    Qed.

    Lemma setop_next_ok P l r p1 p2 : pgives l p1 -> pgives r p2 ->
      exists p1' p2' l' r', setop_next nxt left (fun x y => cmp (bor x) (bor y)) P (p1, p2)
                            = Ok (hd_error (kept P l r), (p1', p2'))
        /\ pgives l' p1' /\ pgives r' p2' /\ kept P l' r' = tl (kept P l r).
    Proof.
      intros H1 H2. unfold setop_next. apply setop_loop_ok; auto. cbn [fst snd].
      pose proof (pgives_left l p1 H1). pose proof (pgives_left r p2 H2). pose proof (mrg_len l r). lia.
    Qed.

    Lemma setop_nexts_ok P n : forall l r p1 p2, pgives l p1 -> pgives r p2 ->
      setop_nexts nxt left (fun x y => cmp (bor x) (bor y)) n P (p1, p2) = Ok (s_nexts n (kept P l r)).
    Proof.
      induction n as [|n IH]; intros l r p1 p2 H1 H2; auto. cbn [setop_nexts].
      destruct (setop_next_ok P l r p1 p2 H1 H2) as (p1' & p2' & l' & r' & E & H1' & H2' & T').
      rewrite E. cbn [bind]. rewrite (IH l' r' p1' p2' H1' H2'). cbn [bind s_nexts]. now rewrite T'.
    Qed.
  End Iter.
End Tag.
