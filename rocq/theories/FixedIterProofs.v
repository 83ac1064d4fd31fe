(** The iterators of the array-based B-tree. *)
From Coq Require Import List PeanoNat Bool Lia Permutation.
From Verif Require Import Base Spec Vec BTreeProofs FixedModel FixedIterModel FixedSpec FixedProofs FixedShows.
Import ListNotations.

(** ** The worklist, for any kind of node iterator *)
Section Inner.
  Context {E C I : Type} (ops : node_ops E C I).
  (** What a node iterator still yields, with everything below it. *)
  Context (rest : I -> list E -> Prop).
  Notation fuel i := (na_fuel ops i).
  Definition next_good : Prop := forall i l, rest i l -> exists a i', na_next ops i = Ok (a, i')
    /\ match a with
       | None => l = [] /\ 1 <= fuel i
       | Some (Return e) => exists l', l = e :: l' /\ rest i' l'
       | Some (Descend c) => exists l1 l2 j, l = l1 ++ l2 /\ na_new ops c = Ok j /\ rest j l1 /\ rest i' l2
                                             /\ fuel j + fuel i' < fuel i
       end.
  Context (Hnext : next_good).

  Definition total (w : list I) : nat := fold_right (fun i n => fuel i + n) 0 w.
  Lemma total_app w1 w2 : total (w1 ++ w2) = total w1 + total w2.
  Proof. unfold total. induction w1; cbn; auto. rewrite IHw1. lia. Qed.

  Definition yields (x : option E) (w' : list I) (ls' : list (list E)) (l l' : list E) : Prop :=
    Forall2 rest w' ls' /\ match x with Some e => l = e :: l' | None => l = [] /\ l' = [] end.

  Lemma next_loop_ok f : forall w ls len, Forall2 rest w ls -> total w < f -> len = length (concat ls) ->
    exists x w' ls', next_loop ops f w len = Ok (x, FIter w' (length (concat ls')))
      /\ yields x w' ls' (concat ls) (concat ls').
  Proof.
    induction f as [|f IH]; intros w ls len F Hf Hl; [lia|]. destruct F as [|i l w ls Hi F].
    - exists None, [], []. cbn in Hl |- *. subst len. repeat split; auto.
    - cbn [next_loop]. destruct (Hnext i l Hi) as (a & i' & -> & G). cbn [bind concat] in *.
      cbn [total fold_right] in Hf. fold (total w) in Hf. rewrite app_length in Hl.
      destruct a as [[e|c]|].
      + destruct G as (l' & -> & Hi'). cbn [length] in Hl. rewrite usize_sub_ok by lia. cbn [bind]. exists (Some e), (i' :: w), (l' :: ls). cbn [concat].
        rewrite app_length. replace (len - 1) with (length l' + length (concat ls)) by lia.
        split; auto. split; auto.
      + destruct G as (l1 & l2 & j & -> & -> & Hj & Hi' & Lf). cbn [bind].
        destruct (IH (j :: i' :: w) (l1 :: l2 :: ls) len) as (x & w' & ls' & E1 & Y); auto.
        { cbn [total fold_right]. fold (total w). lia. }
        { cbn [concat]. rewrite !app_length in *. lia. }
        exists x, w', ls'. split; auto. now rewrite <- app_assoc.
      + destruct G as [-> G]. cbn [app length] in *. apply (IH w ls len); auto. lia.
  Qed.
  Lemma fi_next_ok w ls : Forall2 rest w ls ->
    exists x w' ls', fi_next ops (FIter w (length (concat ls))) = Ok (x, FIter w' (length (concat ls')))
      /\ yields x w' ls' (concat ls) (concat ls').
  Proof. intros F. unfold fi_next. cbn [fi_work fi_len]. apply next_loop_ok; auto. Qed.

  Lemma next_back_loop_ok f : forall w ls len, Forall2 rest w ls -> total w < f -> len = length (concat (rev ls)) ->
    exists x w' ls', next_back_loop ops f w len = Ok (x, FIter w' (length (concat (rev ls'))))
      /\ yields x w' ls' (concat (rev ls)) (concat (rev ls')).
  Proof.
    induction f as [|f IH]; intros w ls len F Hf Hl; [lia|].
    destruct (vec_pop w) as [[i w1]|] eqn:Ew.
    - apply vec_pop_cut in Ew. subst w. cbn [next_back_loop]. rewrite vec_pop_snoc.
      apply Forall2_app_inv_l in F as (ls1 & l0 & F1 & F2 & ->). inversion F2 as [|? l ? ? Hi F3]; subst. inversion F3; subst. clear F2 F3.
      rewrite rev_app_distr in *. cbn [rev app concat] in *.
      destruct (Hnext i l Hi) as (a & i' & -> & G). cbn [bind] in *.
      rewrite total_app in Hf. cbn [total fold_right] in Hf. rewrite app_length.
      destruct a as [[e|c]|].
      + destruct G as (l' & -> & Hi'). cbn [length]. rewrite usize_sub_ok by lia. cbn [bind].
        exists (Some e), (w1 ++ [i']), (ls1 ++ [l']). rewrite rev_app_distr. cbn [rev app concat]. rewrite app_length.
        replace (S (length l') + length (concat (rev ls1)) - 1) with (length l' + length (concat (rev ls1))) by lia.
        split; auto. split; auto. apply Forall2_app; auto.
      + destruct G as (l1 & l2 & j & -> & -> & Hj & Hi' & Lf). cbn [bind].
        destruct (IH ((w1 ++ [i']) ++ [j]) ((ls1 ++ [l2]) ++ [l1]) (length (l1 ++ l2) + length (concat (rev ls1)))) as (x & w' & ls' & E1 & Y).
        { repeat apply Forall2_app; auto. }
        { rewrite !total_app. cbn [total fold_right]. lia. }
        { rewrite !rev_app_distr. cbn [rev app concat]. rewrite !app_length. lia. }
        exists x, w', ls'. split; auto. rewrite !rev_app_distr in Y. cbn [rev app concat] in Y. now rewrite <- app_assoc.
      + destruct G as [-> G]. cbn [app length Nat.add]. apply (IH w1 ls1); auto. lia.
    - assert (w = []).
      { destruct w as [|i0 w0]; auto. destruct (@exists_last _ (i0 :: w0)) as (a & b & X); [discriminate|].
        rewrite X, vec_pop_snoc in Ew. discriminate. }
      subst w. inversion F; subst. exists None, [], []. cbn. repeat split; auto.
  Qed.
  Lemma fi_next_back_ok w ls : Forall2 rest w ls ->
    exists x w' ls', fi_next_back ops (FIter w (length (concat (rev ls)))) = Ok (x, FIter w' (length (concat (rev ls'))))
      /\ yields x w' ls' (concat (rev ls)) (concat (rev ls')).
  Proof. intros F. unfold fi_next_back. cbn [fi_work fi_len]. apply next_back_loop_ok; auto. Qed.

  Definition all_front (cs : list end_call) := Forall (fun c => c = Front) cs.
  Definition all_back (cs : list end_call) := Forall (fun c => c = Back) cs.
  Lemma run_front cs : forall w ls, Forall2 rest w ls -> all_front cs ->
    exists w' ls', fi_run ops cs (FIter w (length (concat ls))) = Ok (s_ends cs (concat ls), FIter w' (length (concat ls')))
      /\ Forall2 rest w' ls' /\ concat ls' = skipn (length cs) (concat ls).
  Proof.
    induction cs as [|c cs IH]; intros w ls F A; cbn [fi_run s_ends length].
    - exists w, ls. auto.
    - inversion A; subst. destruct (fi_next_ok w ls F) as (x & w1 & ls1 & -> & F1 & Y). cbn [bind].
      destruct (IH w1 ls1 F1) as (w' & ls' & -> & F' & Ec); auto. cbn [bind fi_len]. exists w', ls'.
      destruct x as [e|].
      + rewrite Y. cbn [hd_error tl skipn]. auto.
      + destruct Y as [Y1 Y2]. rewrite Y1, Y2 in *. cbn [hd_error tl skipn]. split; auto. split; auto. now destruct cs.
  Qed.
  Definition fronts (cs : list end_call) : list end_call := map (fun _ => Front) cs.
  Lemma run_back cs : forall w ls, Forall2 rest w ls -> all_back cs ->
    exists w' ls', fi_run ops cs (FIter w (length (concat (rev ls))))
                   = Ok (s_ends (fronts cs) (concat (rev ls)), FIter w' (length (concat (rev ls'))))
      /\ Forall2 rest w' ls' /\ concat (rev ls') = skipn (length cs) (concat (rev ls)).
  Proof.
    induction cs as [|c cs IH]; intros w ls F A; cbn [fi_run fronts map s_ends length].
    - exists w, ls. auto.
    - inversion A; subst. destruct (fi_next_back_ok w ls F) as (x & w1 & ls1 & -> & F1 & Y). cbn [bind].
      destruct (IH w1 ls1 F1) as (w' & ls' & -> & F' & Ec); auto. cbn [bind fi_len]. exists w', ls'.
      destruct x as [e|].
      + rewrite Y. cbn [hd_error tl skipn]. auto.
      + destruct Y as [Y1 Y2]. rewrite Y1, Y2 in *. cbn [hd_error tl skipn]. split; auto. split; auto. now destruct cs.
  Qed.
  Lemma perm_rev_concat (ls : list (list E)) : Permutation (concat (rev ls)) (concat ls).
  Proof.
    induction ls as [|l ls IH]; cbn; auto. rewrite concat_app. cbn. rewrite app_nil_r, IH. apply Permutation_app_comm.
  Qed.
  (** Any calls: as [next] on some arrangement of what is left. *)
  Lemma run_any cs : forall w ls, Forall2 rest w ls ->
    exists p w' ls', Permutation p (concat ls)
      /\ fi_run ops cs (FIter w (length (concat ls))) = Ok (s_ends (fronts cs) p, FIter w' (length (concat ls')))
      /\ Forall2 rest w' ls' /\ Permutation (skipn (length cs) p) (concat ls').
  Proof.
    induction cs as [|c cs IH]; intros w ls F; cbn [fi_run fronts map s_ends length].
    - exists (concat ls), w, ls. cbn [skipn]. auto.
    - assert (X : exists x w1 ls1, match c with Front => fi_next ops (FIter w (length (concat ls)))
                                              | Back => fi_next_back ops (FIter w (length (concat ls))) end
                                   = Ok (x, FIter w1 (length (concat ls1))) /\ Forall2 rest w1 ls1
                                   /\ match x with Some e => Permutation (e :: concat ls1) (concat ls)
                                              | None => concat ls = [] /\ concat ls1 = [] end).
      { destruct c.
        - destruct (fi_next_ok w ls F) as (x & w1 & ls1 & E1 & F1 & Y). exists x, w1, ls1. split; auto. split; auto.
          destruct x; auto. now rewrite Y.
        - destruct (fi_next_back_ok w ls F) as (x & w1 & ls1 & E1 & F1 & Y). exists x, w1, ls1.
          rewrite (Permutation_length (perm_rev_concat ls)), (Permutation_length (perm_rev_concat ls1)) in E1. split; auto. split; auto.
          destruct x as [e|].
          + rewrite <- (perm_rev_concat ls), Y. constructor. symmetry. apply perm_rev_concat.
          + destruct Y as [Y1 Y2]. pose proof (perm_rev_concat ls) as P1. pose proof (perm_rev_concat ls1) as P2.
            rewrite Y1 in P1. rewrite Y2 in P2. split; now apply Permutation_nil. }
      destruct X as (x & w1 & ls1 & -> & F1 & Y). cbn [bind].
      destruct (IH w1 ls1 F1) as (p & w' & ls' & P & -> & F' & P'). cbn [bind fi_len].
      destruct x as [e|].
      + exists (e :: p), w', ls'. cbn [hd_error tl skipn]. rewrite <- (Permutation_length P).
        split; [now rewrite P|]. auto.
      + destruct Y as [Y1 Y2]. rewrite Y2 in P. apply Permutation_sym, Permutation_nil in P. subst p.
        exists [], w', ls'. rewrite Y1, Y2 in *. cbn [hd_error tl skipn length]. split; auto. split; auto. split; auto.
        rewrite skipn_nil in P'. auto.
  Qed.
End Inner.

Section Nodes.
  Context {K V : Type}.
  Notation fnode := (fnode K V).
  Notation entry := (K * V)%type.

  Definition node_holds (n : fnode) (l : list entry) : Prop := exists lo h, 1 <= lo /\ holds lo h n l.

  Lemma node_cases n l : node_holds n l -> exists e d es ns ls, n = FNode e d /\ elems_are e es /\ es <> []
    /\ Forall2 node_holds ns ls
    /\ match d with
       | None => ns = [] /\ l = es
       | Some b => kids_are b ns /\ length ns = S (length es) /\ l = weave ls es
       end.
  Proof.
    intros (lo & h & Hlo & H). destruct H as [lo ks vs es B Hk Hv|lo h ks vs ps es ns ls B Hk Hv Ln Hp F].
    - exists (Elems ks vs (length es)), None, es, [], []. split; auto. split; [|split; [|auto]].
      + split; [|split]; cbn [el_keys el_vals el_len]; auto; now apply begins_arr.
      + intros ->. cbn in B. lia.
    - exists (Elems ks vs (length es)), (Some (Kids ps (length ns))), es, ns, ls. split; auto. split; [|split; [|split; [|split; [|split]]]].
      + split; [|split]; cbn [el_keys el_vals el_len]; auto; now apply begins_arr.
      + intros ->. cbn in B. lia.
      + clear -F. induction F; constructor; auto. exists 5, h. split; [lia|auto].
      + split; auto. now apply begins_arr.
      + lia.
      + apply interleave_weave. rewrite <- (Forall2_len _ _ _ F). lia.
  Qed.

  Notation sizes ps := (fold_right (fun o s => match o with Some c => fn_size c | None => 0 end + s) 0 ps).
  Lemma sizes_prefix ps (ns : list fnode) : arr MAX_KIDS ps ns -> fold_right (fun c s => 2 * fn_size c + s) 0 ns <= 2 * sizes ps.
  Proof.
    intros (_ & j & ->). clear. induction ns as [|c ns IH]; [cbn; lia|]. cbn [map app fold_right]. lia.
  Qed.

  (** ** The borrowing iterator *)
  Definition ni_rest (i : node_iter K V) (l : list entry) : Prop :=
    exists es ls, ni_keys i = map fst es /\ ni_vals i = map snd es /\ Forall2 node_holds (ni_kids i) ls
      /\ ((ni_elem i = true /\ ni_kids i = [] /\ l = es)
          \/ (ni_elem i = true /\ ni_kids i <> [] /\ length ls = length es /\ l = zipr es ls)
          \/ (ni_elem i = false /\ length ls = S (length es) /\ l = weave ls es)).

  Lemma ni_new_ok n l : node_holds n l -> exists i, ni_new n = Ok i /\ ni_rest i l /\ na_fuel borrowed i + 1 <= 2 * fn_size n.
  Proof.
    intros H. destruct (node_cases n l H) as (e & d & es & ns & ls & -> & He & Hn & F & D). unfold ni_new.
    destruct (el_live e es He Hn) as [Ek Ev]. destruct d as [b|].
    - destruct D as (Hb & Ln & ->). assert (ns <> []) by (intros ->; discriminate). rewrite (kd_live b ns Hb) by auto. cbn [bind].
      rewrite Ek, Ev. cbn [bind]. eexists. split; [reflexivity|]. split.
      + exists es, ls. cbn [ni_keys ni_vals ni_kids ni_elem]. split; auto. split; auto. split; auto. right. right.
        split; [now destruct ns|]. split; auto. rewrite <- (Forall2_len _ _ _ F). auto.
      + cbn [na_fuel borrowed ni_kids fn_size]. destruct b as [ps k]. pose proof (sizes_prefix ps ns (proj1 Hb)). lia.
    - destruct D as [-> ->]. cbn [bind]. rewrite Ek, Ev. cbn [bind]. eexists. split; [reflexivity|]. split.
      + exists es, []. cbn [ni_keys ni_vals ni_kids ni_elem is_nil]. split; [reflexivity|]. split; [reflexivity|]. split; auto.
      + cbn. lia.
  Qed.

  Lemma ni_next_ok : next_good borrowed ni_rest.
  Proof.
    intros [ks vs cs el bk] l (es & ls & E1 & E2 & F & D). cbn [ni_keys ni_vals ni_kids ni_elem] in *. subst ks vs.
    cbn [na_next borrowed]. unfold ni_next. cbn [ni_keys ni_vals ni_kids ni_elem ni_back_elem].
    destruct D as [(-> & -> & ->)|[(-> & Hc & L & ->)|(-> & L & ->)]].
    - destruct es as [|[k v] es]; cbn [map is_nil]; eexists _, _; (split; [reflexivity|]); cbv beta iota.
      + split; [reflexivity|cbn; lia].
      + eexists. split; [reflexivity|]. exists es, []. cbn [ni_keys ni_vals ni_kids ni_elem]. split; [reflexivity|]. split; [reflexivity|]. split; auto.
    - destruct es as [|[k v] es]; [destruct ls; [inversion F; congruence|discriminate]|]. destruct ls as [|l0 ls]; [discriminate|].
      inversion F as [|c ? cs' ? Hc0 F']; subst. cbn [map is_nil fst snd]. eexists _, _. split; [reflexivity|]. cbv beta iota.
      rewrite zipr_cons. eexists. split; [reflexivity|]. exists es, (l0 :: ls). cbn [ni_keys ni_vals ni_kids ni_elem].
      split; [reflexivity|]. split; [reflexivity|]. split; [exact F|]. right. right. split; [reflexivity|]. split; [cbn in *; lia|].
      rewrite weave_zipr; [reflexivity|]. cbn in L; lia.
    - destruct ls as [|l0 ls]; [discriminate|]. inversion F as [|c ? cs' ? Hc0 F']; subst. eexists _, _. split; [reflexivity|]. cbv beta iota.
      destruct (ni_new_ok c l0 Hc0) as (j & Ej & Rj & Fj).
      rewrite weave_zipr by (cbn in L; lia). exists l0, (zipr es ls), j. split; auto. split; [exact Ej|]. split; auto. split.
      + exists es, ls. cbn [ni_keys ni_vals ni_kids ni_elem]. split; [reflexivity|]. split; [reflexivity|]. split; [exact F'|].
        destruct cs' as [|c' cs'].
        * left. inversion F'; subst. destruct es; [|discriminate]. rewrite zipr_nil. auto.
        * right. left. split; auto. split; [discriminate|]. split; auto.
      + cbn [na_fuel borrowed ni_kids fold_right] in *. lia.
  Qed.

  (** ** The owning iterator *)
  Context (un : fnode -> bool).
  Definition kid_slots (n : fnode) : list (option fnode) := match fn_kids n with Some b => kd_ptrs b | None => [] end.
  Definition no_rest (i : node_into_iter K V) (l : list entry) : Prop :=
    exists e d es ns ls, ol_node (no_n i) = FNode e d /\ elems_are e es /\ es <> [] /\ Forall2 node_holds ns ls
      /\ no_end_elems i = length es /\ no_end_kids i = length ns
      /\ no_elem_x i <= length es
      /\ match d with
         | None => ns = [] /\ no_kid_x i = 0 /\ l = skipn (no_elem_x i) es
         | Some b => kids_are b ns /\ length ns = S (length es)
             /\ ((no_kid_x i = no_elem_x i /\ l = weave (skipn (no_kid_x i) ls) (skipn (no_elem_x i) es))
                 \/ (no_kid_x i = S (no_elem_x i) /\ l = zipr (skipn (no_elem_x i) es) (skipn (no_kid_x i) ls)))
         end.
  Definition ol_holds (o : owned_or_leased K V) (l : list entry) : Prop := node_holds (ol_node o) l.

  Notation dbl ps := (fold_right (fun o s => match o with Some c => 2 * fn_size c | None => 0 end + s) 0 ps).
  Lemma dbl_sizes (ps : list (option fnode)) : dbl ps = 2 * sizes ps.
  Proof. induction ps as [|[c|] ps IH]; cbn [fold_right]; lia. Qed.

  Lemma no_new_ok o l : ol_holds o l -> exists i, no_new o = Ok i /\ no_rest i l /\ no_fuel i + 1 <= 2 * fn_size (ol_node o)
    /\ no_n i = o /\ no_elem_x i = 0 /\ no_kid_x i = 0.
  Proof.
    unfold ol_holds. intros H. destruct (node_cases _ l H) as (e & d & es & ns & ls & E & He & Hn & F & D). unfold no_new. rewrite E.
    pose proof He as (_ & _ & Hl). destruct d as [b|].
    - destruct D as (Hb & Ln & ->). assert (ns <> []) by (intros ->; discriminate). rewrite (kd_live b ns Hb) by auto. cbn [bind].
      eexists. split; [reflexivity|]. split; [|split; [|auto]].
      + exists e, (Some b), es, ns, ls. cbn [no_n no_end_elems no_end_kids no_elem_x no_kid_x].
        split; auto. do 5 (split; auto). split; [lia|]. split; auto. 
      + unfold no_fuel. cbn [no_n no_kid_x]. rewrite E. cbn [fn_kids]. destruct b as [ps k]. cbn [skipn fn_size]. rewrite dbl_sizes. lia.
    - destruct D as [-> ->]. cbn [bind]. eexists. split; [reflexivity|]. split; [|split; [|auto]].
      + exists e, None, es, [], ls. cbn [no_n no_end_elems no_end_kids no_elem_x no_kid_x].
        split; auto. do 5 (split; auto). split; [lia|]. auto.
      + unfold no_fuel. cbn [no_n no_kid_x]. rewrite E. cbn. lia.
  Qed.

  Lemma skipn_nth {A} (l : list A) i x : nth_error l i = Some x -> skipn i l = x :: skipn (S i) l.
  Proof. revert i. induction l as [|a l IH]; intros [|i]; cbn; try discriminate; [congruence|]. intros H. now apply IH. Qed.
  Lemma skipn_map_some {A} n (s : list (option A)) l i x : arr n s l -> nth_error l i = Some x -> nth_error s i = Some (Some x).
  Proof.
    intros (_ & j & ->) H. assert (i < length l) by (apply nth_error_Some; congruence).
    rewrite nth_error_app1 by now rewrite map_length. now apply map_nth_error.
  Qed.
  Lemma no_kid_ok (o : owned_or_leased K V) e b ns x c : ol_node o = FNode e (Some b) -> kids_are b ns -> nth_error ns x = Some c -> no_kid o x = Ok c.
  Proof.
    intros E Hb Hc. assert (ns <> []) by (intros ->; destruct x; discriminate).
    destruct o as [n|n]; cbn [ol_node no_kid] in *; subst n; cbn [fn_kids].
    - cbn [unwrap bind]. eapply read_nth; eauto. apply Hb.
    - rewrite (fchild_ok b ns x Hb) by auto. rewrite Hc. reflexivity.
  Qed.
  Lemma no_elem_ok (o : owned_or_leased K V) e d es x kv : ol_node o = FNode e d -> elems_are e es -> nth_error es x = Some kv -> no_elem o x = Ok kv.
  Proof.
    intros E He Hx. destruct o as [n|n]; cbn [ol_node no_elem] in *; subst n; cbn [fn_elems].
    - destruct He as (Hk & Hv & _).
      rewrite (read_nth _ _ _ x (fst kv) Hk) by now apply map_nth_error. cbn [bind].
      rewrite (read_nth _ _ _ x (snd kv) Hv) by now apply map_nth_error. cbn [bind]. now destruct kv.
    - eapply el_get_ok; eauto.
  Qed.
  Lemma ol_kid o c : ol_node (try_unwrap_kid un o c) = c.
  Proof. destruct o; cbn; auto. destruct (un c); auto. Qed.
  Lemma nth_ex {A} (l : list A) i : i < length l -> exists x, nth_error l i = Some x.
  Proof. intros H. destruct (nth_error l i) eqn:E; [eauto|]. apply nth_error_None in E. lia. Qed.
  Lemma Forall2_nth_r {A B} (R : A -> B -> Prop) l1 l2 : Forall2 R l1 l2 -> forall i x,
    nth_error l1 i = Some x -> exists y, nth_error l2 i = Some y /\ R x y.
  Proof. induction 1; intros [|i] a; cbn; try discriminate; [intros [=<-]; eauto|eauto]. Qed.

  Lemma no_next_ok : next_good (owning un) no_rest.
  Proof.
    intros [o ex ee kx ek] l (e & d & es & ns & ls & E & He & Hn & F & Ee & Ek & Bx & D).
    cbn [no_n no_end_elems no_end_kids no_elem_x no_kid_x] in *. subst ee ek. pose proof (Forall2_len _ _ _ F) as Lls.
    cbn [na_next owning]. unfold no_next. cbn [no_n no_end_elems no_end_kids no_elem_x no_kid_x].
    assert (Fp : 1 <= no_fuel (NodeIntoIter o ex (length es) kx (length ns))) by (unfold no_fuel; lia).
    destruct d as [b|].
    - destruct D as (Hb & Ln & D).
      destruct D as [(-> & ->)|(-> & ->)].
      + destruct (Nat.ltb_spec ex (length ns)); [|lia]. rewrite Nat.leb_refl. cbn [andb].
        destruct (nth_ex ns ex) as (c & Hc); auto. destruct (Forall2_nth_r _ _ _ F ex c Hc) as (lc & Hlc & Rc).
        rewrite (no_kid_ok o e b ns ex c E Hb Hc). cbn [bind]. eexists _, _. split; [reflexivity|]. cbv beta iota.
        destruct (no_new_ok (try_unwrap_kid un o c) lc) as (j & Ej & Rj & Fj & _); [unfold ol_holds; now rewrite ol_kid|].
        rewrite (skipn_nth ls ex lc Hlc). rewrite weave_zipr by (rewrite !skipn_length; lia).
        eexists lc, _, j. split; [reflexivity|]. split; [exact Ej|]. split; auto. split.
        * exists e, (Some b), es, ns, ls. cbn [no_n no_end_elems no_end_kids no_elem_x no_kid_x].
          split; auto. do 6 (split; auto). split; auto. split; auto. right. rewrite Nat.add_1_r. auto.
        * cbn [na_fuel owning]. rewrite ol_kid in Fj. unfold no_fuel at 2 3. cbn [no_n no_kid_x]. rewrite E. cbn [fn_kids].
          destruct b as [ps k]. rewrite (skipn_nth ps ex (Some c)) by (eapply skipn_map_some; [exact (proj1 Hb)|auto]).
          rewrite Nat.add_1_r. cbn [fold_right]. lia.
      + assert (Hf : (S ex <? length ns) && (S ex <=? ex) = false).
        { destruct (Nat.leb_spec (S ex) ex); [lia|]. apply andb_false_r. }
        rewrite Hf. destruct (Nat.ltb_spec ex (length es)) as [Lx|Lx].
        * destruct (nth_ex es ex) as (kv & Hkv); auto. rewrite (no_elem_ok o e _ es ex kv E He Hkv). cbn [bind].
          eexists _, _. split; [reflexivity|]. cbv beta iota. rewrite (skipn_nth es ex kv Hkv).
          destruct (nth_ex ls (S ex)) as (lc & Hlc); [lia|]. rewrite (skipn_nth ls (S ex) lc Hlc). rewrite zipr_cons.
          eexists. split; [reflexivity|]. exists e, (Some b), es, ns, ls. cbn [no_n no_end_elems no_end_kids no_elem_x no_kid_x].
          split; auto. do 5 (split; auto). split; [lia|]. split; auto. split; auto. left. rewrite Nat.add_1_r. split; auto.
          rewrite (skipn_nth ls (S ex) lc Hlc). rewrite weave_zipr; auto. rewrite !skipn_length. lia.
        * eexists _, _. split; [reflexivity|]. cbv beta iota. split; auto.
          rewrite skipn_all2 by lia. apply zipr_nil.
    - destruct D as (-> & -> & ->). change ((0 <? length (@nil fnode)) && (0 <=? ex)) with false. cbv iota.
      destruct (Nat.ltb_spec ex (length es)) as [Lx|Lx].
      + destruct (nth_ex es ex) as (kv & Hkv); auto. rewrite (no_elem_ok o e _ es ex kv E He Hkv). cbn [bind].
        eexists _, _. split; [reflexivity|]. cbv beta iota. rewrite (skipn_nth es ex kv Hkv). eexists. split; [reflexivity|].
        exists e, None, es, [], ls. cbn [no_n no_end_elems no_end_kids no_elem_x no_kid_x].
        split; auto. do 5 (split; auto). split; [lia|]. split; auto. split; auto. now rewrite Nat.add_1_r.
      + eexists _, _. split; [reflexivity|]. cbv beta iota. split; auto. apply skipn_all2. lia.
  Qed.

  (** ** Dropping the owning iterator *)
  Lemma read_range_ok {A} n s (l : list A) cnt : arr n s l -> forall x, x + cnt = length l -> read_range s x cnt = Ok (skipn x l).
  Proof.
    intros H. induction cnt as [|cnt IH]; intros x L; cbn [read_range].
    - now rewrite skipn_all2 by lia.
    - destruct (nth_ex l x) as (a & Ha); [lia|]. rewrite (read_nth _ _ _ _ _ H Ha). cbn [bind].
      rewrite (IH (S x)) by lia. cbn [bind]. now rewrite (skipn_nth l x a Ha).
  Qed.
  Lemma perm_weave {A} (es : list A) : forall ls, Permutation (weave ls es) (es ++ concat ls).
  Proof.
    induction es as [|e es IH]; intros [|l ls]; cbn [weave concat app].
    - auto.
    - auto.
    - now rewrite app_nil_r.
    - rewrite (IH ls). rewrite <- Permutation_middle. constructor.
      rewrite !app_assoc. apply Permutation_app_tail. apply Permutation_app_comm.
  Qed.
  Lemma perm_zipr {A} (es : list A) : forall ls, length es = length ls -> Permutation (zipr es ls) (es ++ concat ls).
  Proof.
    induction es as [|e es IH]; intros [|l ls] H; try discriminate; [auto|]. rewrite zipr_cons. cbn [concat app].
    constructor. rewrite (IH ls) by (cbn in H; lia). rewrite !app_assoc. apply Permutation_app_tail. apply Permutation_app_comm.
  Qed.
  Lemma combine_map {A B} (l : list (A * B)) : combine (map fst l) (map snd l) = l.
  Proof. induction l as [|[a b] l IH]; cbn; auto. now rewrite IH. Qed.
  Lemma skipn_map' {A B} (f : A -> B) l i : skipn i (map f l) = map f (skipn i l).
  Proof. revert i. induction l; intros [|i]; cbn; auto. Qed.
  Lemma Forall2_skip {A B} (R : A -> B -> Prop) l1 l2 : Forall2 R l1 l2 -> forall n, Forall2 R (skipn n l1) (skipn n l2).
  Proof. induction 1; intros [|n]; cbn; auto. Qed.

  Definition owned (i : node_into_iter K V) : Prop := match no_n i with Owned _ => True | Leased _ => False end.
  Lemma no_drop_ok i l : no_rest i l -> exists es cs ls, no_drop i = Ok (es, cs) /\ Forall2 node_holds cs ls
    /\ (owned i -> Permutation (es ++ concat ls) l) /\ (~ owned i -> es = [] /\ cs = []).
  Proof.
    destruct i as [[n|n] ex ee kx ek]; intros (e & d & es & ns & ls & E & He & Hn & F & Ee & Ek & Bx & D);
      cbn [no_n ol_node no_end_elems no_end_kids no_elem_x no_kid_x owned no_drop] in *.
    - subst n ee ek. destruct He as (Hk & Hv & Hl). pose proof (Forall2_len _ _ _ F) as Lls.
      rewrite (read_range_ok _ _ _ _ Hk ex) by (rewrite map_length; lia). cbn [bind].
      rewrite (read_range_ok _ _ _ _ Hv ex) by (rewrite map_length; lia). cbn [bind].
      rewrite !skipn_map', combine_map. destruct d as [b|].
      + destruct D as (Hb & Ln & D). assert (Bk : kx <= length ns) by (destruct D as [[-> _]|[-> _]]; lia).
        rewrite (read_range_ok _ _ _ _ (proj1 Hb) kx) by lia. cbn [bind].
        eexists _, _, (skipn kx ls). split; [reflexivity|]. split; [now apply Forall2_skip|]. split; [|tauto]. intros _.
        destruct D as [(-> & ->)|(-> & ->)]; symmetry.
        * apply perm_weave.
        * apply perm_zipr. rewrite !skipn_length. lia.
      + destruct D as (-> & -> & ->). cbn [bind]. eexists _, _, []. split; [reflexivity|]. split; [constructor|]. split; [|tauto].
        intros _. cbn. now rewrite app_nil_r.
    - exists [], [], []. split; [reflexivity|]. split; [constructor|]. split; [tauto|auto].
  Qed.
  (** An iterator that has yielded everything drops nothing. *)
  Lemma no_drop_nil i : no_rest i [] -> no_drop i = Ok ([], []).
  Proof.
    intros R. destruct (no_drop_ok i [] R) as (es & cs & ls & E & F & P & NP).
    assert (X : owned i \/ ~ owned i) by (unfold owned; destruct (no_n i); auto).
    destruct X as [X|X].
    - apply P, Permutation_sym, Permutation_nil, app_eq_nil in X as [-> X]. destruct F as [|c l cs ls H F]; auto.
      exfalso. apply app_eq_nil in X as [-> _]. destruct (node_cases _ _ H) as (e & d & es & ns & ls' & _ & _ & Hn & F' & D).
      destruct d as [b|].
      + destruct D as (_ & Ln & D). assert (length (weave ls' es) = 0) by now rewrite <- D.
        rewrite weave_length in H0 by (rewrite <- (Forall2_len _ _ _ F'); lia). destruct es; [congruence|cbn in H0; lia].
      + destruct D as [_ <-]. congruence.
    - destruct (NP X) as [-> ->]. auto.
  Qed.

  Lemma perm4 {A} (a b c d e f : list A) : Permutation ((a ++ b) ++ (c ++ d) ++ e ++ f) ((a ++ c ++ e) ++ b ++ d ++ f).
  Proof.
    rewrite <- !app_assoc. apply Permutation_app_head. rewrite Permutation_app_swap_app. apply Permutation_app_head.
    rewrite !app_assoc. apply Permutation_app_tail. rewrite <- (app_assoc e). apply Permutation_app_comm.
  Qed.

  (** Dropping: what is dropped and what is left in shared nodes is what had not been yielded. *)
  Lemma fi_drop_ok w ls : Forall2 no_rest w ls -> exists es cs kls X, fi_drop w = Ok (es, cs) /\ Forall2 node_holds cs kls
    /\ Permutation (es ++ concat kls ++ X) (concat ls) /\ (Forall owned w -> X = []).
  Proof.
    induction 1 as [|i l w ls R F IH]; cbn [fi_drop concat].
    - exists [], [], [], []. cbn. auto.
    - destruct (no_drop_ok i l R) as (es & cs & kls & -> & Fk & P & NP). cbn [bind].
      destruct IH as (es' & cs' & kls' & X & -> & Fk' & P' & O'). cbn [bind].
      assert (D : owned i \/ ~ owned i) by (unfold owned; destruct (no_n i); auto).
      assert (G : exists Y, Permutation (es ++ concat kls ++ Y) l /\ (owned i -> Y = [])).
      { destruct D as [D|D]; [exists []; rewrite app_nil_r; auto|].
        destruct (NP D) as [-> ->]. inversion Fk; subst. exists l. cbn. split; auto. tauto. }
      destruct G as (Y & PY & OY). exists (es ++ es'), (cs ++ cs'), (kls ++ kls'), (Y ++ X).
      split; [reflexivity|]. split; [now apply Forall2_app|]. split.
      + rewrite concat_app, <- PY, <- P'. apply perm4.
      + intros O. inversion O; subst. rewrite OY, O' by auto. reflexivity.
  Qed.

  Definition no_rest_owned (i : node_into_iter K V) (l : list entry) : Prop := no_rest i l /\ owned i.
  Lemma no_next_owned : (forall n, un n = true) -> next_good (owning un) no_rest_owned.
  Proof.
    intros U i l [R O]. destruct (no_next_ok i l R) as (a & i' & E & G). exists a, i'. split; auto.
    assert (En : no_n i' = no_n i).
    { cbn [na_next owning] in E. unfold no_next in E. destruct (_ && _).
      - destruct (no_kid _ _); cbn [bind] in E; [|discriminate]. now injection E as <- <-.
      - destruct (_ <? _); [|now injection E as <- <-]. destruct (no_elem _ _); cbn [bind] in E; [|discriminate]. now injection E as <- <-. }
    assert (O' : owned i') by (unfold owned; now rewrite En).
    destruct a as [[e|c]|]; auto.
    - destruct G as (l' & -> & R'). exists l'. split; auto. split; auto.
    - destruct G as (l1 & l2 & j & -> & Ej & Rj & R' & L). exists l1, l2, j. split; auto. split; auto. split; [|split; [split; auto|auto]].
      split; auto. cbn [na_next owning] in E. unfold no_next in E. destruct (_ && _).
      + destruct (no_kid _ _) as [cc|]; cbn [bind] in E; [|discriminate]. injection E as <- <-.
        cbn [na_new owning] in Ej. unfold no_new in Ej. unfold owned. unfold owned in O. destruct (no_n i) as [n|n]; [|tauto].
        cbn [try_unwrap_kid] in *. rewrite U in *. cbn [ol_node] in Ej. destruct cc as [e d].
        destruct (match d with Some b => _ | None => _ end); cbn [bind] in Ej; [|discriminate]. injection Ej as <-. cbn. auto.
      + destruct (_ <? _); [|discriminate]. destruct (no_elem _ _); cbn [bind] in E; [|discriminate]. discriminate.
  Qed.
End Nodes.
