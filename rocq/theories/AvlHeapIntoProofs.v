(** Proofs about owning iteration over shared [AvlMap]s. *)
From Coq Require Import List PeanoNat Bool Lia Permutation.
From Verif Require Import Base Spec MapSpec SpecFacts Heap HeapProofs AvlModel AvlIterModel AvlShows AvlHeapModel AvlHeapSpec AvlHeapHistSpec AvlHeapProofs AvlHeapProofs2
  AvlHeapProofs3 AvlHeapProofs4 AvlHeapProofs6 AvlHeapIntoModel AvlHeapIntoSpec AvlHeapMutProofs AvlHeapMutProofs4 AvlHeapLazy.
From Verif Require AvlProofs AvlProofs2.
Import ListNotations.
Local Open Scope nat_scope.
Arguments depth : simpl never.

Section Core.
  Context {K V I : Type} (mk : K * V -> I).
  Variable bomb : nat -> bool.
  Notation pay := (pay K V).
  Notation heap := (heap pay).
  Notation tree := (tree K V).
  Notation onode := (onode K V).
  Notation work := (list (action onode I)).
  Notation gwork := (list (action tree (K * V))).
  Notation stands := (stands mk).
  Notation a_ptrs := (a_ptrs (I := I)).
  Notation den := (@Heap.den pay).

  Definition owptrs (w : work) : list addr := olists (flat_map a_ptrs w).
  Definition flat (gs : gwork) : list (K * V) := flat_map entries gs.
  Definition ostands (h : heap) (n : option onode) (t : tree) : Prop :=
    match n with None => t = Leaf | Some n => t <> Leaf /\ stands h (Descend n) (Descend t) end.
  Definition gdesc (t : tree) : gwork := match t with Leaf => [] | _ => [Descend t] end.
  Definition nptrs (n : option onode) : list addr := match n with None => [] | Some n => olists (o_ptrs n) end.

  Lemma olists_app a b : olists (a ++ b) = olists a ++ olists b.
  Proof. apply flat_map_app. Qed.
  Lemma owptrs_app a b : owptrs (a ++ b) = owptrs a ++ owptrs b.
  Proof. unfold owptrs. now rewrite flat_map_app, olists_app. Qed.
  Lemma owptrs_odesc n : owptrs (odesc n) = nptrs n.
  Proof. destruct n; auto. unfold owptrs. cbn. now rewrite app_nil_r. Qed.
  Lemma owptrs_cons x w : owptrs (x :: w) = olists (a_ptrs x) ++ owptrs w.
  Proof. unfold owptrs. cbn. now rewrite olists_app. Qed.
  Lemma flat_app a b : flat (a ++ b) = flat a ++ flat b.
  Proof. apply flat_map_app. Qed.
  Lemma flat_gdesc t : flat (gdesc t) = elems t.
  Proof. destruct t; auto. cbn. now rewrite app_nil_r. Qed.

  Lemma sound_eq (h : heap) O O' : (forall a, cnt a O = cnt a O') -> sound h O -> sound h O'.
  Proof. intros E [W A]. split; auto. eapply wf_equiv; eauto. Qed.

  Lemma stands_frame O (h h' : heap) x g : frame O h h' -> incl (olists (a_ptrs x)) O -> stands h x g -> stands h' x g.
  Proof.
    intros F Hi S. destruct S as [e|a t D L|k v lh rh l r pl pr Dl Dr L]; constructor; auto; apply F; auto;
      intros y Hy; apply Hi; cbn [AvlHeapIntoModel.a_ptrs o_ptrs olists flat_map]; rewrite ?in_app_iff; auto.
  Qed.
  Lemma works_frame O (h h' : heap) : frame O h h' -> forall w gs, incl (owptrs w) O -> Forall2 (stands h) w gs -> Forall2 (stands h') w gs.
  Proof.
    intros F w gs Hi S. induction S as [|x g w gs Sx S IH]; constructor.
    - eapply stands_frame; eauto. intros y Hy. apply Hi. rewrite owptrs_cons. apply in_or_app. auto.
    - apply IH. intros y Hy. apply Hi. rewrite owptrs_cons. apply in_or_app. auto.
  Qed.
  Lemma ostands_frame O (h h' : heap) n t : frame O h h' -> incl (nptrs n) O -> ostands h n t -> ostands h' n t.
  Proof.
    intros F Hi S. destruct n as [n|]; auto. destruct S as [S1 S2]. split; auto. eapply stands_frame; eauto.
  Qed.
  Lemma ostands_work (h : heap) n t : ostands h n t -> Forall2 (stands h) (odesc n) (gdesc t).
  Proof.
    destruct n as [n|]; cbn [ostands odesc].
    - intros [Ht S]. destruct t; [congruence|]. cbn [gdesc]. now repeat constructor.
    - intros ->. constructor.
  Qed.

  Lemma oi_of_ok (h : heap) p t O : sound h (olist p ++ O) -> den h p (tv t) -> levels t < depth ->
    exists h' n, oi_of h p = Ok (h', n) /\ sound h' (nptrs n ++ O) /\ frame O h h' /\ ostands h' n t
      /\ clones h' = clones h /\ length (cells h') = length (cells h).
  Proof.
    intros [W A] D L. destruct p as [a|].
    2:{ exists h, None. assert (t = Leaf) as -> by (now apply (den_leaf h None t D)). repeat split; auto. }
    destruct t as [|k v lh rh l r]; [inversion D|]. destruct (den_node _ _ _ _ _ _ _ _ D) as (c & pl & pr & G & Dl & Dr).
    unfold oi_of, unique. rewrite G. cbn [olist app] in W. destruct (Nat.eq_dec c 1) as [->|Hc].
    - destruct (take_ok h a _ O W A G) as (h1 & E & W1 & A1 & F1 & Ds & _ & _ & C1 & C2). rewrite E. cbn [bind nd_kids nd_data].
      exists h1, (Some (OOwn (Pay k v lh rh) pl pr)). split; [reflexivity|]. split; [split; [exact W1|exact A1]|]. split; [exact F1|].
      assert (Hd : dens h1 [pl; pr] [tv l; tv r]) by (apply Ds; repeat constructor; auto).
      inversion Hd as [|? ? ? ? D1 Hd1]; subst. inversion Hd1 as [|? ? ? ? D2 _]; subst.
      split; [|auto]. split; [discriminate|]. constructor; auto.
    - exists h, (Some (OArc a)). split; [destruct c as [|[|c]]; [reflexivity|congruence|reflexivity]|].
      split; [split; auto|]. split; [apply frame_refl|]. split; [|auto]. split; [discriminate|]. constructor; auto.
  Qed.

  Definition destructed (h : heap) (t : tree) (O : list addr) (h' : heap) (o : out (option onode * I * option onode)) : Prop :=
    match o with
    | Done (lf, x, rt) => exists k v lh rh l r new, t = Node k v lh rh l r /\ x = mk (k, v) /\ ostands h' lf l /\ ostands h' rt r
        /\ sound h' (nptrs lf ++ nptrs rt ++ O) /\ clones h' = new ++ clones h /\ (new = [] \/ new = [Pay k v lh rh])
    | Unwound => (exists n, bomb n = true) /\ sound h' O /\ clones h' = root_pay t ++ clones h
    end.
  Lemma destr_ok (h : heap) n t O : sound h (olists (o_ptrs n) ++ O) -> stands h (Descend n) (Descend t) ->
    exists h' o, oi_destr mk bomb h n = Ok (h', o) /\ frame O h h' /\ length (cells h') = length (cells h) /\ destructed h t O h' o.
  Proof.
    intros So S. inversion S as [|a t' D L|k v lh rh l r pl pr Dl Dr L]; subst; clear S.
    - destruct t as [|k v lh rh l r]; [inversion D|]. destruct (den_node _ _ _ _ _ _ _ _ D) as (c & pl & pr & G & Dl & Dr).
      cbn [oi_destr]. rewrite G. cbn [levels] in L. destruct So as [W A]. cbn [o_ptrs olists flat_map olist app] in W.
      destruct (inc_ok h pl (a :: O) W A) as (h1 & E1 & W1 & A1 & S1 & S1' & P1 & C1 & K1).
      { intros y Hy. apply in_or_app. right. eapply ptrs_in; [exact G|]. cbn [nd_kids olists flat_map]. apply in_or_app. auto. }
      rewrite E1. cbn [bind]. destruct (log_ok h1 (Pay k v lh rh) _ W1 A1) as (W2 & A2 & S2 & S2' & C2 & P2).
      pose proof (same_frame2 O h h1 S1 S1' C1) as F1. pose proof (same_frame2 O h1 _ S2 S2' C2) as F2.
      destruct (bomb (length (clones h1))) eqn:Eb.
      + destruct (drops_ok (log h1 (Pay k v lh rh)) [pl; Some a] O) as (h3 & E3 & W3 & A3 & F3 & K3 & C3); auto.
        { eapply wf_equiv; [|exact W2]. intros x. cbn [olists flat_map olist]. rewrite !cnt_app, cnt_cons. cbn. lia. }
        rewrite E3. cbn [bind]. eexists h3, Unwound. split; [reflexivity|]. split; [exact (frame_trans _ _ _ _ F1 (frame_trans _ _ _ _ F2 F3))|].
        split; [lia|]. split; [eauto|]. split; [split; auto|]. rewrite K3. cbn [log clones root_pay app]. now rewrite K1.
      + destruct (inc_ok (log h1 (Pay k v lh rh)) pr _ W2 A2) as (h3 & E3 & W3 & A3 & S3 & S3' & P3 & C3 & K3).
        { intros y Hy. apply in_or_app. right. rewrite P2, P1. eapply ptrs_in; [exact G|]. cbn [nd_kids olists flat_map]. apply in_or_app. right. apply in_or_app. auto. }
        rewrite E3. cbn [bind].
        destruct (drop_ok h3 (Some a) (olist pl ++ olist pr ++ O)) as (h4 & E4 & W4 & A4 & F4 & K4 & C4); auto.
        { eapply wf_equiv; [|exact W3]. intros x. cbn [olist]. cbn [app]. rewrite ?cnt_app, ?cnt_cons, ?cnt_app, ?cnt_cons. lia. }
        rewrite E4. cbn [bind pk pv].
        assert (S03 : same_nodes h h3) by (eapply same_nodes_trans; [exact S1|]; eapply same_nodes_trans; [exact S2|exact S3]).
        assert (S30 : same_nodes h3 h) by (eapply same_nodes_trans; [exact S3'|]; eapply same_nodes_trans; [exact S2'|exact S1']).
        assert (C03 : length (cells h3) = length (cells h)) by lia.
        eexists h4, _. split; [reflexivity|]. split.
        { eapply frame_trans; [exact (same_frame2 O h h3 S03 S30 C03)|]. eapply frame_incl; [|exact F4]. intros y Hy. rewrite !in_app_iff. auto. }
        split; [lia|]. exists k, v, lh, rh, l, r, [Pay k v lh rh]. split; [auto|]. split; [auto|].
        assert (T : forall p u, incl (olist p) (olist pl ++ olist pr ++ O) -> levels u < depth -> den h p (tv u) -> ostands h4 (option_map OArc p) u /\ nptrs (option_map OArc p) = olist p).
        { intros [b|] u Hi Lu Du; cbn [option_map ostands nptrs o_ptrs olists flat_map olist app].
          - split; auto. split; [intros ->; inversion Du|]. constructor; auto. apply F4; auto. now apply (den_same h h3 S03).
          - split; auto. now apply (den_leaf h None u Du). }
        destruct (T pl l) as [Tl El]; auto; [intros y Hy; rewrite !in_app_iff; auto|lia|].
        destruct (T pr r) as [Tr Er]; auto; [intros y Hy; rewrite !in_app_iff; auto|lia|].
        split; [exact Tl|]. split; [exact Tr|]. split; [rewrite El, Er; split; auto|]. split; [|now right].
        rewrite K4, K3. cbn [log clones app]. now rewrite K1.
    - cbn [oi_destr]. cbn [levels] in L. cbn [o_ptrs olists flat_map] in So.
      destruct (oi_of_ok h pl l (olist pr ++ O)) as (h1 & lf & E1 & So1 & F1 & T1 & K1 & C1); auto; [|lia|].
      { eapply sound_eq; [|exact So]. intros x. rewrite !cnt_app. cbn. lia. }
      rewrite E1. cbn [bind].
      destruct (oi_of_ok h1 pr r (nptrs lf ++ O)) as (h2 & rt & E2 & So2 & F2 & T2 & K2 & C2); [| |lia|].
      { eapply sound_eq; [|exact So1]. intros x. rewrite !cnt_app. lia. }
      { apply F1; auto. intros y Hy. apply in_or_app. auto. }
      rewrite E2. cbn [bind pk pv]. eexists h2, _. split; [reflexivity|]. split.
      { eapply frame_trans; (eapply frame_incl; [|eassumption]); intros y Hy; apply in_or_app; auto. }
      split; [lia|]. exists k, v, lh, rh, l, r, []. split; auto. split; auto. split.
      { eapply ostands_frame; [exact F2| |exact T1]. intros y Hy. apply in_or_app. auto. }
      split; [exact T2|]. split; [|split; [cbn; congruence|auto]].
      eapply sound_eq; [|exact So2]. intros x. rewrite !cnt_app. lia.
  Qed.

  (** The keys of the trees that are still to be descended into. *)
  Definition pend (gs : gwork) : list K := flat_map (fun g => match g with Descend t => map fst (elems t) | Return _ => [] end) gs.
  Lemma pend_app a b : pend (a ++ b) = pend a ++ pend b.
  Proof. apply flat_map_app. Qed.
  Lemma pend_gdesc t : pend (gdesc t) = map fst (elems t).
  Proof. destruct t; auto. cbn. now rewrite app_nil_r. Qed.
  (** The subtrees of a tree. *)
  Inductive subtree : tree -> tree -> Prop :=
  | st_here t : subtree t t
  | st_left u k v lh rh l r : subtree u l -> subtree u (Node k v lh rh l r)
  | st_right u k v lh rh l r : subtree u r -> subtree u (Node k v lh rh l r).
  Lemma st_trans t u w : subtree t u -> subtree u w -> subtree t w.
  Proof. intros H1 H2. induction H2; auto; [apply st_left|apply st_right]; auto. Qed.
  Definition inside (t0 : tree) (g : action tree (K * V)) : Prop := match g with Descend t => subtree t t0 | Return _ => True end.
  Lemma inside_gdesc t0 t : subtree t t0 -> Forall (inside t0) (gdesc t).
  Proof. intros H. destruct t; cbn; repeat constructor; auto. Qed.

  (** A clone is of the root of a subtree that has the entry that is about to be yielded. *)
  Definition above (t0 : tree) (e : option (K * V)) (c : pay) : Prop :=
    exists k v lh rh l r, subtree (Node k v lh rh l r) t0 /\ c = Pay k v lh rh /\ exists e', e = Some e' /\ In e' (elems (Node k v lh rh l r)).

  Definition after (front : bool) (h : heap) (gs : gwork) (len : nat) (O : list addr) (h' : heap) (it : inner_iter onode I) (o : out (option I)) : Prop :=
    sound h' (oheld it ++ O) /\ frame O h h' /\ length (cells h') = length (cells h) /\
    exists gs' new rest, Forall2 (stands h') (it_work it) gs' /\ clones h' = new ++ clones h
      /\ Permutation (pend gs) (map pk new ++ pend gs' ++ rest)
      /\ (forall t0, Forall (inside t0) gs -> Forall (inside t0) gs' /\ Forall (above t0 (hd_error (if front then flat gs else rev (flat gs)))) new)
      /\ match o with
         | Done x => x = option_map mk (hd_error (if front then flat gs else rev (flat gs)))
                     /\ flat gs' = (if front then tl (flat gs) else removelast (flat gs))
                     /\ it_len it = len - match flat gs with [] => 0 | _ => 1 end
         | Unwound => (exists n, bomb n = true) /\ it_len it = len
                      /\ exists l1, l1 <> [] /\ flat gs = (if front then l1 ++ flat gs' else flat gs' ++ l1)
         end.
  Definition high (gs : gwork) : nat := match gs with Descend t :: _ => levels t | _ => 0 end.

  Lemma above_here (t : tree) t0 k v lh rh l r e f : t = Node k v lh rh l r -> subtree t t0 ->
    hd_error (elems t ++ f) = Some e -> In e (elems t) -> above t0 (Some e) (Pay k v lh rh).
  Proof. intros -> S _ Hi. exists k, v, lh, rh, l, r. eauto. Qed.
  Lemma elems_hd (t : tree) f : t <> Leaf -> exists e, hd_error (elems t ++ f) = Some e /\ In e (elems t).
  Proof.
    destruct t as [|k v lh rh l r]; [congruence|]. intros _. cbn [elems]. destruct (elems l) as [|e l']; cbn; eauto.
  Qed.

  Lemma step_front (h : heap) n t w gs len O : sound h (owptrs (Descend n :: w) ++ O) -> stands h (Descend n) (Descend t) -> Forall2 (stands h) w gs ->
    exists h1 o, oi_destr mk bomb h n = Ok (h1, o) /\ frame O h h1 /\ length (cells h1) = length (cells h) /\
    match o with
    | Unwound => after true h (Descend t :: gs) len O h1 (InnerIter w len) Unwound
    | Done (lf, x, rt) => exists k v lh rh l r new, t = Node k v lh rh l r /\ (new = [] \/ new = [Pay k v lh rh]) /\ clones h1 = new ++ clones h
        /\ sound h1 (owptrs (odesc lf ++ Return x :: odesc rt ++ w) ++ O)
        /\ Forall2 (stands h1) (odesc lf ++ Return x :: odesc rt ++ w) (gdesc l ++ Return (k, v) :: gdesc r ++ gs)
    end.
  Proof.
    intros So Sx Sw. rewrite owptrs_cons, <- app_assoc in So. destruct (destr_ok h n t (owptrs w ++ O) So Sx) as (h1 & o & E & F & C & D).
    exists h1, o. split; [exact E|]. assert (Fi : frame O h h1) by (eapply frame_incl; [|exact F]; intros y Hy; apply in_or_app; auto).
    split; [exact Fi|]. split; [exact C|].
    assert (Sw1 : Forall2 (stands h1) w gs) by (eapply works_frame; [exact F| |exact Sw]; intros y Hy; apply in_or_app; auto).
    assert (Nt : t <> Leaf) by (intros ->; inversion Sx as [|? ? Dx _|]; subst; inversion Dx).
    destruct o as [[[lf x] rt]|]; cbn [destructed] in D.
    - destruct D as (k & v & lh & rh & l & r & new & -> & -> & Tl & Tr & So1 & K1 & Hn). exists k, v, lh, rh, l, r, new.
      split; auto. split; auto. split; auto. split.
      + rewrite owptrs_app, owptrs_odesc, owptrs_cons, owptrs_app, owptrs_odesc. cbn [AvlHeapIntoModel.a_ptrs olists flat_map app].
        now rewrite <- !app_assoc.
      + apply Forall2_app; [now apply ostands_work|]. constructor; [constructor|]. apply Forall2_app; [now apply ostands_work|exact Sw1].
    - destruct D as (Hb & So1 & K1). split; [exact So1|]. split; [exact Fi|]. split; [exact C|].
      destruct t as [|k v lh rh l r]; [congruence|]. cbn [root_pay] in K1. exists gs, [Pay k v lh rh], (map fst (elems l) ++ map fst (elems r)).
      split; [exact Sw1|]. split; [exact K1|]. split.
      { cbn [pend flat_map elems map pk app]. rewrite map_app. cbn [map fst]. rewrite <- app_assoc. cbn [app].
        symmetry. apply Permutation_cons_app. fold (pend gs). rewrite (app_assoc _ _ (pend gs)). apply Permutation_app_comm. }
      split.
      { intros t0 Ht. inversion Ht as [|? ? H1 H2]; subst. split; auto. constructor; auto. cbn [inside] in H1. cbn [flat flat_map entries].
        destruct (elems_hd (Node k v lh rh l r) (flat_map entries gs)) as (e & E1 & E2); [discriminate|]. rewrite E1.
        exists k, v, lh, rh, l, r. eauto. }
      split; [exact Hb|]. split; [reflexivity|]. exists (elems (Node k v lh rh l r)). split; [|reflexivity]. cbn [elems]. destruct (elems l); discriminate.
  Qed.

  Lemma pend_step k v lh rh (l r : tree) gs new rest gs' : (new = [] \/ new = [Pay k v lh rh]) ->
    forall new2, Permutation (pend (gdesc l ++ Return (k, v) :: gdesc r ++ gs)) (map pk new2 ++ pend gs' ++ rest) ->
    exists rest', Permutation (pend (Descend (Node k v lh rh l r) :: gs)) (map pk (new2 ++ new) ++ pend gs' ++ rest').
  Proof.
    intros Hn new2 P. rewrite pend_app, pend_gdesc in P. cbn [pend flat_map app] in P. fold (pend (gdesc r ++ gs)) in P. rewrite pend_app, pend_gdesc in P.
    assert (P1 : Permutation (pend (Descend (Node k v lh rh l r) :: gs)) (k :: map pk new2 ++ pend gs' ++ rest)).
    { cbn [pend flat_map elems]. rewrite map_app, <- app_assoc. cbn [map fst app]. symmetry. apply Permutation_cons_app. symmetry. exact P. }
    destruct Hn as [->| ->].
    - exists (k :: rest). eapply Permutation_trans; [exact P1|]. rewrite app_nil_r, !app_assoc. now apply Permutation_cons_app.
    - exists rest. eapply Permutation_trans; [exact P1|]. rewrite map_app, <- app_assoc. cbn [map pk app]. now apply Permutation_cons_app.
  Qed.

  Lemma next_core fuel : forall (h : heap) w gs len O, sound h (owptrs w ++ O) -> Forall2 (stands h) w gs -> high gs < fuel ->
    length (flat gs) <= len ->
    exists h' it o, oi_next_fuel mk bomb fuel h w len = Ok (h', it, o) /\ after true h gs len O h' it o.
  Proof.
    induction fuel as [|fuel IH]; intros h w gs len O So Sw Hf Hl; [lia|]. cbn [oi_next_fuel].
    destruct Sw as [|x g w gs Sx Sw].
    { eexists h, _, _. split; [reflexivity|]. split; [exact So|]. split; [apply frame_refl|]. split; auto.
      exists [], [], []. cbn. repeat match goal with |- _ /\ _ => split end; auto; lia. }
    destruct x as [n|x].
    2:{ inversion Sx as [e| |]; subst. cbn [flat flat_map entries app length] in Hl. unfold usize_sub. destruct (Nat.leb_spec 1 len); [|lia]. cbn [bind].
        eexists h, _, _. split; [reflexivity|]. split; [exact So|]. split; [apply frame_refl|]. split; auto.
        exists gs, [], []. split; auto. split; auto. split; [cbn; now rewrite app_nil_r|]. split; [|auto].
        intros t0 Ht. inversion Ht; auto. }
    destruct g as [t|e]; [|inversion Sx].
    destruct (step_front h n t w gs len O So Sx Sw) as (h1 & o & E & F & C & D). rewrite E. cbn [bind].
    destruct o as [[[lf x] rt]|]; [|eauto].
    destruct D as (k & v & lh & rh & l & r & new & -> & Hn & K1 & So1 & Sw1).
    assert (Ef : flat (gdesc l ++ Return (k, v) :: gdesc r ++ gs) = flat (Descend (Node k v lh rh l r) :: gs)).
    { rewrite flat_app, flat_gdesc. cbn [flat flat_map entries elems app]. fold (flat (gdesc r ++ gs)). rewrite flat_app, flat_gdesc, <- app_assoc. reflexivity. }
    destruct (IH h1 _ _ len O So1 Sw1) as (h2 & it & o & E2 & So2 & F2 & C2 & gs' & new2 & rest & Sg & K2 & Pm & In2 & Re).
    { cbn [high levels] in Hf. destruct l; cbn [gdesc app high] in *; lia. }
    { rewrite Ef. exact Hl. }
    exists h2, it, o. split; [exact E2|]. split; [exact So2|]. split; [eapply frame_trans; eauto|]. split; [lia|].
    destruct (pend_step _ _ _ _ _ _ _ _ _ _ Hn _ Pm) as (rest' & Pm'). exists gs', (new2 ++ new), rest'.
    split; [exact Sg|]. split; [rewrite K2, K1; now rewrite app_assoc|]. split; [exact Pm'|]. rewrite Ef in In2, Re. split; [|exact Re].
    intros t0 Ht. inversion Ht as [|? ? H1 H2]; subst. cbn [inside] in H1.
    destruct (In2 t0) as [I1 I2].
    { apply Forall_app. split; [apply inside_gdesc; eapply st_trans; [apply st_left, st_here|exact H1]|].
      constructor; [exact Logic.I|]. apply Forall_app. split; auto. apply inside_gdesc. eapply st_trans; [apply st_right, st_here|exact H1]. }
    split; [exact I1|]. apply Forall_app. split; [exact I2|]. destruct Hn as [->| ->]; constructor; auto.
    cbn [flat flat_map entries].
    destruct (elems_hd (Node k v lh rh l r) (flat_map entries gs)) as (e & E1 & Hi); [discriminate|]. rewrite E1. exists k, v, lh, rh, l, r. eauto.
  Qed.

  Lemma elems_last (t : tree) f : t <> Leaf -> exists e, hd_error (rev (f ++ elems t)) = Some e /\ In e (elems t).
  Proof.
    destruct t as [|k v lh rh l r]; [congruence|]. intros _. cbn [elems]. rewrite rev_app_distr, rev_app_distr. cbn [rev].
    destruct (rev (elems r)) as [|e l'] eqn:E; cbn.
    - exists (k, v). split; auto. apply in_or_app. right. now left.
    - exists e. split; auto. apply in_or_app. right. right. apply in_rev. rewrite E. now left.
  Qed.
  Lemma step_back (h : heap) n t w gs len O : sound h (owptrs (w ++ [Descend n]) ++ O) -> stands h (Descend n) (Descend t) -> Forall2 (stands h) w gs ->
    exists h1 o, oi_destr mk bomb h n = Ok (h1, o) /\ frame O h h1 /\ length (cells h1) = length (cells h) /\
    match o with
    | Unwound => after false h (gs ++ [Descend t]) len O h1 (InnerIter w len) Unwound
    | Done (lf, x, rt) => exists k v lh rh l r new, t = Node k v lh rh l r /\ (new = [] \/ new = [Pay k v lh rh]) /\ clones h1 = new ++ clones h
        /\ sound h1 (owptrs (w ++ odesc lf ++ Return x :: odesc rt) ++ O)
        /\ Forall2 (stands h1) (w ++ odesc lf ++ Return x :: odesc rt) (gs ++ gdesc l ++ Return (k, v) :: gdesc r)
    end.
  Proof.
    intros So Sx Sw. rewrite owptrs_app in So. assert (So' : sound h (olists (o_ptrs n) ++ owptrs w ++ O)).
    { eapply sound_eq; [|exact So]. intros x. unfold owptrs. cbn [flat_map AvlHeapIntoModel.a_ptrs]. rewrite app_nil_r, !cnt_app. lia. }
    destruct (destr_ok h n t (owptrs w ++ O) So' Sx) as (h1 & o & E & F & C & D).
    exists h1, o. split; [exact E|]. assert (Fi : frame O h h1) by (eapply frame_incl; [|exact F]; intros y Hy; apply in_or_app; auto).
    split; [exact Fi|]. split; [exact C|].
    assert (Sw1 : Forall2 (stands h1) w gs) by (eapply works_frame; [exact F| |exact Sw]; intros y Hy; apply in_or_app; auto).
    assert (Nt : t <> Leaf) by (intros ->; inversion Sx as [|? ? Dx _|]; subst; inversion Dx).
    destruct o as [[[lf x] rt]|]; cbn [destructed] in D.
    - destruct D as (k & v & lh & rh & l & r & new & -> & -> & Tl & Tr & So1 & K1 & Hn). exists k, v, lh, rh, l, r, new.
      split; auto. split; auto. split; auto. split.
      + rewrite !owptrs_app, owptrs_odesc, owptrs_cons, owptrs_odesc. cbn [AvlHeapIntoModel.a_ptrs olists flat_map app].
        eapply sound_eq; [|exact So1]. intros x. rewrite !cnt_app. lia.
      + apply Forall2_app; [exact Sw1|]. apply Forall2_app; [now apply ostands_work|]. constructor; [constructor|now apply ostands_work].
    - destruct D as (Hb & So1 & K1). split; [exact So1|]. split; [exact Fi|]. split; [exact C|].
      destruct t as [|k v lh rh l r]; [congruence|]. cbn [root_pay] in K1. exists gs, [Pay k v lh rh], (map fst (elems l) ++ map fst (elems r)).
      split; [exact Sw1|]. split; [exact K1|]. split.
      { rewrite pend_app. cbn [pend flat_map elems map pk app]. rewrite app_nil_r, map_app. cbn [map fst]. rewrite app_assoc.
        symmetry. apply Permutation_cons_app. fold (pend gs). now rewrite <- app_assoc. }
      split.
      { intros t0 Ht. apply Forall_app in Ht as [H1 H2]. inversion H2 as [|? ? H3 _]; subst. split; auto. constructor; auto. cbn [inside] in H3.
        rewrite flat_app. replace (flat [Descend (Node k v lh rh l r)]) with (elems (Node k v lh rh l r)) by (cbn; now rewrite app_nil_r).
        destruct (elems_last (Node k v lh rh l r) (flat gs)) as (e & E1 & E2); [discriminate|]. rewrite E1.
        exists k, v, lh, rh, l, r. eauto. }
      split; [exact Hb|]. split; [reflexivity|]. exists (elems (Node k v lh rh l r)). split; [cbn [elems]; destruct (elems l); discriminate|].
      rewrite flat_app. f_equal. cbn. now rewrite app_nil_r.
  Qed.
  Definition high_back (gs : gwork) : nat := match rev gs with Descend t :: _ => levels t | _ => 0 end.
  Lemma next_back_core fuel : forall (h : heap) w gs len O, sound h (owptrs w ++ O) -> Forall2 (stands h) w gs -> high_back gs < fuel ->
    length (flat gs) <= len ->
    exists h' it o, oi_next_back_fuel mk bomb fuel h w len = Ok (h', it, o) /\ after false h gs len O h' it o.
  Proof.
    induction fuel as [|fuel IH]; intros h w gs len O So Sw Hf Hl; [lia|]. cbn [oi_next_back_fuel].
    destruct w as [|x w _] using rev_ind.
    { inversion Sw; subst. eexists h, _, _. split; [reflexivity|]. split; [exact So|]. split; [apply frame_refl|]. split; auto.
      exists [], [], []. cbn. repeat match goal with |- _ /\ _ => split end; auto; lia. }
    apply Forall2_app_inv_l in Sw as (gs0 & g1 & Sw & Sx & ->). inversion Sx as [|? g ? ? Sg Sn]; subst. inversion Sn; subst. clear Sx Sn. rename gs0 into gs.
    rewrite rev_app_distr. cbn [rev app]. destruct x as [n|x].
    2:{ inversion Sg as [e| |]; subst. rewrite flat_app, app_length in Hl. cbn [flat flat_map entries app length] in Hl. unfold usize_sub. destruct (Nat.leb_spec 1 len); [|lia]. cbn [bind].
        rewrite rev_involutive. eexists h, _, _. split; [reflexivity|]. split.
        { rewrite owptrs_app in So. cbn in So. rewrite app_nil_r in So. exact So. }
        split; [apply frame_refl|]. split; auto.
        exists gs, [], []. split; auto. split; auto. split; [rewrite pend_app; cbn; reflexivity|].
        rewrite flat_app. cbn [flat flat_map entries app]. rewrite rev_app_distr, removelast_last. cbn [rev app hd_error option_map].
        split; [|split; [auto|split; [auto|]]].
        - intros t0 Ht. apply Forall_app in Ht as [H1 _]; auto.
        - cbn [it_len]. destruct (flat gs); reflexivity. }
    destruct g as [t|e]; [|inversion Sg].
    destruct (step_back h n t w gs len O So Sg Sw) as (h1 & o & E & F & C & D). rewrite E, rev_involutive. cbn [bind].
    destruct o as [[[lf x] rt]|]; [|eauto].
    destruct D as (k & v & lh & rh & l & r & new & -> & Hn & K1 & So1 & Sw1).
    assert (Ef : flat (gs ++ gdesc l ++ Return (k, v) :: gdesc r) = flat (gs ++ [Descend (Node k v lh rh l r)])).
    { rewrite !flat_app, flat_gdesc. cbn [flat flat_map entries elems app]. fold (flat (gdesc r)). now rewrite flat_gdesc, app_nil_r. }
    destruct (IH h1 _ _ len O So1 Sw1) as (h2 & it & o & E2 & So2 & F2 & C2 & gs' & new2 & rest & Sg' & K2 & Pm & In2 & Re).
    { unfold high_back in Hf |- *. rewrite rev_app_distr in Hf. cbn [rev app levels] in Hf. rewrite !rev_app_distr. cbn [rev].
      destruct r; cbn [gdesc rev app]; lia. }
    { rewrite Ef. exact Hl. }
    exists h2, it, o. split; [exact E2|]. split; [exact So2|]. split; [eapply frame_trans; eauto|]. split; [lia|].
    assert (Pm0 : Permutation (pend (gdesc l ++ Return (k, v) :: gdesc r ++ gs)) (map pk new2 ++ pend gs' ++ rest)).
    { eapply Permutation_trans; [|exact Pm]. rewrite !pend_app. cbn [pend flat_map app]. fold (pend (gdesc r ++ gs)) (pend (gdesc r)). rewrite pend_app.
      rewrite (app_assoc (pend (gdesc l))). apply Permutation_app_comm. }
    destruct (pend_step _ _ _ _ _ _ _ _ _ _ Hn _ Pm0) as (rest' & Pm'). exists gs', (new2 ++ new), rest'.
    split; [exact Sg'|]. split; [rewrite K2, K1; now rewrite app_assoc|]. split.
    { eapply Permutation_trans; [|exact Pm']. rewrite pend_app. apply Permutation_app_comm || idtac. cbn [pend flat_map]. rewrite app_nil_r. apply Permutation_app_comm. }
    rewrite Ef in In2, Re. split; [|exact Re].
    intros t0 Ht. apply Forall_app in Ht as [H2 H3]. inversion H3 as [|? ? H1 _]; subst. cbn [inside] in H1.
    destruct (In2 t0) as [I1 I2].
    { apply Forall_app. split; auto. apply Forall_app. split; [apply inside_gdesc; eapply st_trans; [apply st_left, st_here|exact H1]|].
      constructor; [exact Logic.I|]. apply inside_gdesc. eapply st_trans; [apply st_right, st_here|exact H1]. }
    split; [exact I1|]. apply Forall_app. split; [exact I2|]. destruct Hn as [->| ->]; constructor; auto.
    rewrite flat_app. replace (flat [Descend (Node k v lh rh l r)]) with (elems (Node k v lh rh l r)) by (cbn; now rewrite app_nil_r).
    destruct (elems_last (Node k v lh rh l r) (flat gs)) as (e & E1 & Hi); [discriminate|]. rewrite E1. exists k, v, lh, rh, l, r. eauto.
  Qed.
End Core.
