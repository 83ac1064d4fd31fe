(** Shared nodes made of arrays and shared nodes made of lists: the heap operations agree. *)
From Coq Require Import List PeanoNat Bool Lia.
From Verif Require Import Base Vec Heap HeapProofs BTreeModel BTreeHeapModel FixedModel FixedProofs FixedHeapModel.
Import ListNotations.
Local Open Scope nat_scope.

(** ** A heap with its payloads mapped *)
Section HeapMap.
  Context {P P' : Type} (f : P -> P').
  Definition nm (n : node P) : node P' := Nd (f (nd_data n)) (nd_kids n).
  Definition cm (c : nat * node P) : nat * node P' := (fst c, nm (snd c)).
  Definition hm (h : heap P) : heap P' := Heap (map (option_map cm) (cells h)) (map f (clones h)).
  Definition rm_ {A B} (g : A -> B) (r : res A) : res B := match r with Ok x => Ok (g x) | Panic => Panic end.

  Lemma cells_hm h : length (cells (hm h)) = length (cells h).
  Proof. apply map_length. Qed.
  Lemma clones_hm h : clones (hm h) = map f (clones h).
  Proof. reflexivity. Qed.
  Lemma get_hm h a : get (hm h) a = option_map cm (get h a).
  Proof. unfold get, hm. cbn [cells]. rewrite nth_error_map. destruct (nth_error (cells h) a) as [[c|]|]; reflexivity. Qed.
  Lemma upd_map {A B} (g : A -> B) i x l : map g (upd i x l) = upd i (g x) (map g l).
  Proof. revert i. induction l as [|y l IH]; intros [|i]; cbn; auto. now rewrite IH. Qed.
  Lemma put_hm h a c : hm (put h a c) = put (hm h) a (option_map cm c).
  Proof. unfold put, hm. cbn [cells clones]. now rewrite upd_map. Qed.
  Lemma log_hm h d : hm (log h d) = log (hm h) (f d).
  Proof. reflexivity. Qed.
  Lemma alloc_hm h n : alloc (hm h) (nm n) = (hm (fst (alloc h n)), snd (alloc h n)).
  Proof. unfold alloc, hm. cbn [cells clones fst snd]. now rewrite map_app, map_length. Qed.
  Lemma inc_hm h p : inc (hm h) p = rm_ hm (inc h p).
  Proof.
    destruct p as [a|]; [|reflexivity]. cbn [inc]. rewrite get_hm. destruct (get h a) as [[c n]|]; [|reflexivity].
    cbn [option_map cm fst snd rm_]. now rewrite put_hm.
  Qed.
  Lemma incs_hm ps : forall h, incs (hm h) ps = rm_ hm (incs h ps).
  Proof.
    induction ps as [|p ps IH]; intros h; [reflexivity|]. cbn [incs]. rewrite inc_hm.
    destruct (inc h p) as [h1|]; [|reflexivity]. cbn [rm_ bind]. apply IH.
  Qed.
  Lemma dec_hm h a : dec (hm h) a = rm_ hm (dec h a).
  Proof.
    unfold dec. rewrite get_hm. destruct (get h a) as [[[|[|c]] n]|]; try reflexivity.
    cbn [option_map cm fst snd rm_]. now rewrite put_hm.
  Qed.
  Lemma take_hm h a : take (hm h) a = rm_ (fun x => (hm (fst x), nm (snd x))) (take h a).
  Proof.
    unfold take. rewrite get_hm. destruct (get h a) as [[[|[|c]] n]|]; try reflexivity.
    cbn [option_map cm fst snd rm_]. now rewrite put_hm.
  Qed.
  Lemma give_hm h a n : hm (give h a n) = give (hm h) a (nm n).
  Proof. unfold give. apply put_hm. Qed.
  Lemma slots_hm h : slots (hm h) = slots h.
  Proof. unfold slots, hm. cbn [cells]. induction (cells h) as [|[[c n]|] l IH]; cbn in *; auto. Qed.
  Lemma drops_fuel_hm fuel : forall h ps, drops_fuel fuel (hm h) ps = rm_ hm (drops_fuel fuel h ps).
  Proof.
    induction fuel as [|fuel IH]; intros h ps; [reflexivity|]. cbn [drops_fuel].
    destruct ps as [|[a|] ps]; [reflexivity| |apply IH]. rewrite get_hm.
    destruct (get h a) as [[[|[|c]] n]|]; try reflexivity; cbn [option_map cm fst snd].
    - change (put (hm h) a None) with (put (hm h) a (option_map cm None)). rewrite <- put_hm. apply IH.
    - change (Some (S c, nm n)) with (option_map cm (Some (S c, n))). rewrite <- put_hm. apply IH.
  Qed.
  Lemma drops_hm h ps : drops (hm h) ps = rm_ hm (drops h ps).
  Proof. unfold drops. rewrite slots_hm. apply drops_fuel_hm. Qed.
  Lemma drop_hm h p : drop (hm h) p = rm_ hm (drop h p).
  Proof. apply drops_hm. Qed.
  Lemma unique_hm h a : unique (hm h) a = unique h a.
  Proof. unfold unique. rewrite get_hm. destruct (get h a) as [[[|[|c]] n]|]; reflexivity. Qed.

  Lemma rm_ok_inv {A B} (g : A -> B) r y : rm_ g r = Ok y -> exists x, r = Ok x /\ y = g x.
  Proof. destruct r; cbn; [|discriminate]. intros [= <-]. eauto. Qed.

  (** Cells only lose nodes, or change their counts. *)
  Definition subn (h h' : heap P) : Prop := forall a c n, get h' a = Some (c, n) -> exists c', get h a = Some (c', n).
  Lemma subn_refl h : subn h h.
  Proof. intros a c n. eauto. Qed.
  Lemma subn_trans h1 h2 h3 : subn h1 h2 -> subn h2 h3 -> subn h1 h3.
  Proof. intros S1 S2 a c n G. destruct (S2 _ _ _ G) as (c' & G'). eauto. Qed.
  Lemma subn_none h a : subn h (put h a None).
  Proof.
    intros b c n G. destruct (Nat.eq_dec a b) as [<-|Hn]; [|rewrite get_put_other in G by auto; eauto].
    destruct (Nat.lt_ge_cases a (length (cells h))) as [Hl|Hl].
    - rewrite get_put_same in G by auto. discriminate.
    - apply get_lt in G. rewrite cells_put in G. lia.
  Qed.
  Lemma subn_cnt h a c c' n : get h a = Some (c, n) -> subn h (put h a (Some (c', n))).
  Proof.
    intros G0 b x m G. destruct (Nat.eq_dec a b) as [<-|Hn]; [|rewrite get_put_other in G by auto; eauto].
    rewrite get_put_same in G by (eapply get_lt; eauto). injection G as <- <-. eauto.
  Qed.
  Lemma subn_inc h p h' : inc h p = Ok h' -> subn h h'.
  Proof.
    destruct p as [a|]; cbn [inc]; [|intros [= <-]; apply subn_refl].
    destruct (get h a) as [[c n]|] eqn:G; [|discriminate]. intros [= <-]. eapply subn_cnt; eauto.
  Qed.
  Lemma subn_incs ps : forall h h', incs h ps = Ok h' -> subn h h'.
  Proof.
    induction ps as [|p ps IH]; intros h h'; cbn [incs]; [intros [= <-]; apply subn_refl|].
    destruct (inc h p) as [h1|] eqn:E; [|discriminate]. cbn [bind]. intros E1.
    eapply subn_trans; [eapply subn_inc; eauto|eauto].
  Qed.
  Lemma subn_dec h a h' : dec h a = Ok h' -> subn h h'.
  Proof.
    unfold dec. destruct (get h a) as [[[|[|c]] n]|] eqn:G; try discriminate. intros [= <-]. eapply subn_cnt; eauto.
  Qed.
  Lemma subn_take h a h' n : take h a = Ok (h', n) -> subn h h' /\ exists c, get h a = Some (c, n).
  Proof.
    unfold take. destruct (get h a) as [[[|[|c]] m]|] eqn:G; try discriminate. intros [= <- <-]. split; [apply subn_none|eauto].
  Qed.
  Lemma subn_drops_fuel fuel : forall h ps h', drops_fuel fuel h ps = Ok h' -> subn h h'.
  Proof.
    induction fuel as [|fuel IH]; intros h ps h'; [discriminate|]. cbn [drops_fuel].
    destruct ps as [|[a|] ps]; [intros [= <-]; apply subn_refl| |apply IH].
    destruct (get h a) as [[[|[|c]] n]|] eqn:G; try discriminate; intros E; (eapply subn_trans; [|eapply IH; exact E]).
    - apply subn_none.
    - eapply subn_cnt; eauto.
  Qed.
  Lemma subn_drops h ps h' : drops h ps = Ok h' -> subn h h'.
  Proof. apply subn_drops_fuel. Qed.
  Lemma subn_log h d : subn h (log h d).
  Proof. intros a c n G. rewrite get_log in G. eauto. Qed.
End HeapMap.

Lemma olists_somes l : olists (map Some l) = l.
Proof. unfold olists. induction l as [|a l IH]; cbn; auto. now rewrite IH. Qed.

(** ** Nodes of arrays *)
Section Erase.
  Context {K V : Type}.
  Variable bomb : nat -> bool.
  Notation elems := (elems K V).
  Notation okids := (option (kids addr)).
  Notation cell := (elems * okids)%type.
  Notation fheap := (heap cell).
  Notation pay := (list (K * V)).

  Definition ent (c : cell) : pay := match el_clear (fst c) with Ok (es, _) => es | Panic => [] end.
  Definition er : fheap -> heap pay := hm ent.

  (** The arrays hold the entries [es] and the children [ks]. *)
  Definition crel (e : elems) (d : okids) (es : pay) (ks : list addr) : Prop :=
    elems_are e es /\ match d with None => ks = [] | Some b => ks <> [] /\ kids_are b ks end.
  Definition tidy (n : node cell) : Prop :=
    exists es ks, crel (fst (nd_data n)) (snd (nd_data n)) es ks /\ nd_kids n = map Some ks.
  Definition good (h : fheap) : Prop := forall a c n, get h a = Some (c, n) -> tidy n.

  Lemma arr_firstn {A} m (s : list (option A)) l : arr m s l -> firstn (length l) s = map Some l.
  Proof.
    intros (_ & j & ->). rewrite <- (map_length Some l), firstn_app, firstn_all, Nat.sub_diag. cbn. apply app_nil_r.
  Qed.
  Lemma comb_split (es : pay) : combine (map fst es) (map snd es) = es.
  Proof. induction es as [|[k v] es IH]; cbn; auto. now rewrite IH. Qed.
  Lemma el_clear_are (e : elems) es : elems_are e es -> el_clear e = Ok (es, @Elems K V (el_keys e) (el_vals e) 0).
  Proof.
    intros H. pose proof (elems_len e es H) as L. destruct H as (Hk & Hv & Hl). unfold el_clear. rewrite Hl.
    pose proof (arr_firstn _ _ _ Hk) as E1. pose proof (arr_firstn _ _ _ Hv) as E2. rewrite map_length in E1, E2.
    rewrite E1, E2, !all_init_some. cbn [bind]. destruct (Nat.leb_spec (length es) MAX_OCCUPANCY); [|lia].
    cbn [assert_ bind]. now rewrite comb_split.
  Qed.
  Lemma ent_is e d es ks : crel e d es ks -> ent (e, d) = es.
  Proof. intros [H _]. unfold ent. cbn [fst]. now rewrite (el_clear_are _ _ H). Qed.
  Lemma elems_det (e : elems) es es' : elems_are e es -> elems_are e es' -> es = es'.
  Proof. intros H H'. apply el_clear_are in H. apply el_clear_are in H'. congruence. Qed.

  Lemma kid_ptrs_is e d es ks : crel e d es ks -> kid_ptrs d = Ok (map Some ks).
  Proof.
    intros [_ H]. destruct d as [b|]; [|now subst]. destruct H as [_ [Ha Hl]]. cbn [kid_ptrs].
    pose proof (arr_len _ _ _ Ha) as L. destruct Ha as [Hn Ha]. rewrite Hn, Hl.
    destruct (Nat.leb_spec (length ks) MAX_KIDS); [|lia]. cbn [assert_ bind].
    rewrite (arr_firstn MAX_KIDS), all_init_some by (split; auto). reflexivity.
  Qed.
  Lemma f_node_is e d es ks : crel e d es ks -> f_node e d = Ok (Nd (e, d) (map Some ks)) /\ tidy (Nd (e, d) (map Some ks))
    /\ nm ent (Nd (e, d) (map Some ks)) = Nd es (map Some ks).
  Proof.
    intros H. unfold f_node. rewrite (kid_ptrs_is _ _ _ _ H). split; [reflexivity|]. split; [exists es, ks; auto|].
    unfold nm. cbn [nd_data nd_kids]. now rewrite (ent_is _ _ _ _ H).
  Qed.

  Lemma clone_slots_ok {A} m (s : list (option A)) l len : arr m s l -> len = length l ->
    exists s', clone_slots len s = Ok s' /\ arr m s' l.
  Proof.
    intros (Hn & j & ->) ->. rewrite app_length, map_length in Hn. subst m.
    induction l as [|x l IH]; cbn [length map app clone_slots].
    - eexists. split; [reflexivity|]. split; [unfold uninit; apply repeat_length|]. now exists (uninit (length j)).
    - destruct IH as (s' & -> & Hl & j' & ->). cbn [bind]. eexists. split; [reflexivity|]. split; [cbn [length] in *; lia|]. now exists j'.
  Qed.
  Lemma cell_clone_ok e d es ks : crel e d es ks -> exists e' d', cell_clone e d = Ok (e', d') /\ crel e' d' es ks.
  Proof.
    intros [(Hk & Hv & Hl) Hd]. unfold cell_clone.
    destruct (clone_slots_ok _ _ _ (el_len e) Hk) as (k' & -> & Hk'); [now rewrite map_length|].
    destruct (clone_slots_ok _ _ _ (el_len e) Hv) as (v' & -> & Hv'); [now rewrite map_length|]. cbn [bind].
    destruct d as [b|].
    - destruct Hd as [Hn [Ha Hb]]. destruct (clone_slots_ok _ _ _ (kd_len b) Ha) as (p' & -> & Hp'); auto. cbn [bind].
      eexists _, _. split; [reflexivity|]. split; [split; auto|]. split; auto. split; auto.
    - cbn [bind]. eexists _, _. split; [reflexivity|]. split; [split; auto|auto].
  Qed.

  Lemma good_sub h h' : good h -> subn h h' -> good h'.
  Proof. intros G S a c n E. destruct (S _ _ _ E) as (c' & E'). eauto. Qed.
  Lemma good_put h a c n : good h -> tidy n -> good (put h a (Some (c, n))).
  Proof.
    intros G T b x m E. destruct (Nat.eq_dec a b) as [<-|Hn]; [|rewrite get_put_other in E by auto; eauto].
    destruct (Nat.lt_ge_cases a (length (cells h))) as [Hl|Hl].
    - rewrite get_put_same in E by auto. injection E as <- <-. auto.
    - apply get_lt in E. rewrite cells_put in E. lia.
  Qed.
  Lemma good_alloc h n : good h -> tidy n -> good (fst (alloc h n)).
  Proof.
    intros G T b x m E. rewrite get_alloc in E. destruct (Nat.eq_dec (length (cells h)) b); [|eauto].
    injection E as <- <-. auto.
  Qed.

  (** ** The operations *)
  Lemma get_er h a c n : good h -> get (er h) a = Some (c, n) ->
    exists e d es ks, get h a = Some (c, Nd (e, d) (map Some ks)) /\ n = Nd es (map Some ks) /\ crel e d es ks.
  Proof.
    intros G E. unfold er in E. rewrite get_hm in E. destruct (get h a) as [[c' m]|] eqn:E'; [|discriminate].
    cbn [option_map cm fst snd] in E. injection E as -> <-. destruct (G _ _ _ E') as (es & ks & Cr & Hk).
    destruct m as [[e d] ps]. cbn [nd_data nd_kids fst snd] in *. subst ps. exists e, d, es, ks. split; auto. split; auto.
    unfold nm. cbn [nd_data nd_kids]. now rewrite (ent_is _ _ _ _ Cr).
  Qed.
  Lemma get_er_none h a : get (er h) a = None -> get h a = None.
  Proof. unfold er. rewrite get_hm. destruct (get h a); [discriminate|auto]. Qed.

  Definition orel (r : out (addr * pay * list addr)) (r' : out (addr * elems * okids)) : Prop :=
    match r, r' with
    | Done (a, es, ks), Done (a', e, d) => a' = a /\ crel e d es ks
    | Unwound, Unwound => True
    | _, _ => False
    end.

  Lemma fpeek_sim h a es : good h -> peek (er h) a = Ok es ->
    exists e d ks c, fpeek h a = Ok e /\ elems_are e es /\ get h a = Some (c, Nd (e, d) (map Some ks)) /\ crel e d es ks.
  Proof.
    intros G E. unfold peek in E. destruct (get (er h) a) as [[c n]|] eqn:E'; [|discriminate]. injection E as <-.
    destruct (get_er _ _ _ _ G E') as (e & d & es & ks & Gh & -> & Cr). exists e, d, ks, c. unfold fpeek. rewrite Gh.
    split; auto. split; [apply Cr|]. split; auto.
  Qed.

  Lemma fcls_sim h a e d es ks : good h -> crel e d es ks ->
    exists h', fcls h a e d = Ok h' /\ er h' = cls (er h) a es ks /\ good h'.
  Proof.
    intros G Cr. destruct (f_node_is _ _ _ _ Cr) as (E & T & En). unfold fcls. rewrite E. cbn [bind].
    eexists. split; [reflexivity|]. split; [unfold er; now rewrite give_hm, En|]. now apply good_put.
  Qed.
  Lemma f_alloc_sim h e d es ks g b : good h -> crel e d es ks -> alloc (er h) (Nd es (map Some ks)) = (g, b) ->
    exists h', f_alloc h e d = Ok (h', b) /\ er h' = g /\ good h'.
  Proof.
    intros G Cr Ea. destruct (f_node_is _ _ _ _ Cr) as (E & T & En). unfold f_alloc. rewrite E. cbn [bind].
    rewrite <- En in Ea. unfold er in Ea. rewrite alloc_hm in Ea. injection Ea as <- <-.
    eexists. split; [rewrite (surjective_pairing (alloc h _)); reflexivity|]. split; auto. now apply good_alloc.
  Qed.

  Lemma fopn_sim h a g r : good h -> opn bomb (er h) a = Ok (g, r) ->
    exists h' r', fopn bomb h a = Ok (h', r') /\ er h' = g /\ good h' /\ orel r r'.
  Proof.
    intros G E. unfold opn, make_mut in E. unfold fopn, f_make_mut.
    destruct (get (er h) a) as [[c n]|] eqn:E0; [|discriminate].
    destruct (get_er _ _ _ _ G E0) as (e & d & es & ks & Gh & -> & Cr). rewrite Gh.
    assert (Tk : forall h1 a1 e1 d1, good h1 -> get h1 a1 = Some (1, Nd (e1, d1) (map Some ks)) -> crel e1 d1 es ks ->
      ('(h2, n) <- take (er h1) a1;; Ok (h2, Done (a1, nd_data n, olists (nd_kids n)))) = Ok (g, r) ->
      exists h' r', ('(h2, n) <- take h1 a1;; Ok (h2, Done (a1, fst (nd_data n), snd (nd_data n)))) = Ok (h', r')
        /\ er h' = g /\ good h' /\ orel r r').
    { intros h1 a1 e1 d1 G1 Gt Cr1 Et. unfold er in Et. rewrite take_hm in Et.
      unfold take in *. rewrite Gt in *. cbn [rm_ bind fst snd nd_data nd_kids nm] in *. injection Et as <- <-.
      eexists _, _. split; [reflexivity|]. split; auto. split; [eapply good_sub; [exact G1|apply subn_none]|].
      cbn [orel]. split; auto. rewrite (ent_is _ _ _ _ Cr1), olists_somes. exact Cr1. }
    assert (Sh : '(h1, r) <- (if bomb (length (clones (er h))) then Ok (log (er h) es, None)
         else h1 <- incs (log (er h) es) (map Some ks);;
              (let '(h2, a') := alloc h1 (Nd es (map Some ks)) in h3 <- dec h2 a;; Ok (h3, Some a')));;
       match r with
       | None => Ok (h1, Unwound)
       | Some a' => '(h2, n) <- take h1 a';; Ok (h2, Done (a', nd_data n, olists (nd_kids n)))
       end = Ok (g, r) ->
      exists h' r', let lg := log h (e, d) in '(h1, r) <- (if bomb (length (clones h)) then Ok (lg, None)
          else '(e, d) <- cell_clone e d;; n' <- f_node e d;; h1 <- incs lg (nd_kids n');;
            (let '(h2, a') := alloc h1 n' in h3 <- dec h2 a;; Ok (h3, Some a')));;
       match r with
       | None => Ok (h1, Unwound)
       | Some a' => '(h2, n) <- take h1 a';; Ok (h2, Done (a', fst (nd_data n), snd (nd_data n)))
       end = Ok (h', r') /\ er h' = g /\ good h' /\ orel r r').
    { clear E. intros E. unfold er in E at 1. rewrite clones_hm, map_length in E. destruct (bomb (length (clones h))).
      - cbn [bind] in E. injection E as <- <-. eexists _, _. split; [reflexivity|].
        split; [unfold er; now rewrite log_hm, (ent_is _ _ _ _ Cr)|]. split; [|exact Logic.I]. eapply good_sub; [exact G|apply subn_log].
      - destruct (cell_clone_ok _ _ _ _ Cr) as (e' & d' & -> & Cr'). cbn [bind].
        destruct (f_node_is _ _ _ _ Cr') as (En & T & Em). rewrite En. cbn [bind nd_kids].
        assert (El : log (er h) es = er (log h (e, d))) by (unfold er; now rewrite log_hm, (ent_is _ _ _ _ Cr)).
        rewrite El in E. unfold er in E at 1. rewrite incs_hm in E.
        destruct (incs (log h (e, d)) (map Some ks)) as [h1|] eqn:Ei; cbn [rm_ bind] in *; [|discriminate].
        rewrite <- Em in E. rewrite alloc_hm in E. destruct (alloc h1 _) as [h2 a'] eqn:Ea. cbn [fst snd] in E.
        rewrite dec_hm in E. destruct (dec h2 a) as [h3|] eqn:Ed; cbn [rm_ bind] in *; [|discriminate].
        assert (G2 : good h2).
        { pose proof (good_alloc h1 (Nd (e', d') (map Some ks))) as Ga. rewrite Ea in Ga. apply Ga; auto.
          eapply good_sub; [|eapply subn_incs; exact Ei]. eapply good_sub; [exact G|apply subn_log]. }
        assert (G3 : good h3) by (eapply good_sub; [exact G2|eapply subn_dec; eauto]).
        unfold er in Tk. destruct (take h3 a') as [[h4 n4]|] eqn:Et.
        2:{ rewrite take_hm, Et in E. discriminate. }
        destruct (subn_take _ _ _ _ Et) as (_ & c4 & Gt).
        assert (get h3 a' = Some (1, n4)) as Gt1.
        { unfold take in Et. destruct (get h3 a') as [[[|[|?]] ?]|]; try discriminate. injection Et as _ <-. auto. }
        assert (n4 = Nd (e', d') (map Some ks)) as ->.
        { destruct (subn_dec _ _ _ Ed _ _ _ Gt1) as (c5 & G5).
          pose proof (get_alloc h1 (Nd (e', d') (map Some ks)) a') as Gx. rewrite Ea in Gx. cbn [fst snd] in Gx.
          unfold alloc in Ea. injection Ea as <- <-. destruct (Nat.eq_dec _ _) in Gx; [|congruence]. rewrite Gx in G5. now injection G5 as _ <-. }
        destruct (Tk h3 a' e' d' G3 Gt1 Cr' E) as (h' & r' & E' & P). rewrite Et in E'. exists h', r'. auto. }
    destruct c as [|[|c]].
    - apply Sh. exact E.
    - cbn [bind] in *. eapply Tk; eauto.
    - apply Sh. exact E.
  Qed.

  Definition owrel (r : out (pay * list addr)) (r' : out cell) : Prop :=
    match r, r' with
    | Done (es, ks), Done (e, d) => crel e d es ks
    | Unwound, Unwound => True
    | _, _ => False
    end.
  Lemma fown_sim h a g r : good h -> own bomb (er h) a = Ok (g, r) ->
    exists h' r', fown bomb h a = Ok (h', r') /\ er h' = g /\ good h' /\ owrel r r'.
  Proof.
    intros G E. unfold own in E. unfold fown.
    destruct (get (er h) a) as [[c n]|] eqn:E0; [|discriminate].
    destruct (get_er _ _ _ _ G E0) as (e & d & es & ks & Gh & -> & Cr). rewrite Gh. cbn [nd_data nd_kids fst snd] in *.
    assert (El : log (er h) es = er (log h (e, d))) by (unfold er; now rewrite log_hm, (ent_is _ _ _ _ Cr)).
    assert (Gl : good (log h (e, d))) by (eapply good_sub; [exact G|apply subn_log]).
    assert (Sh : (let h0 := log (er h) es in
        if bomb (length (clones (er h))) then h1 <- dec h0 a;; Ok (h1, Unwound)
        else h1 <- incs h0 (map Some ks);; h2 <- dec h1 a;; Ok (h2, Done (es, olists (map Some ks)))) = Ok (g, r) ->
      exists h' r', (let h0 := log h (e, d) in
        if bomb (length (clones h)) then h1 <- dec h0 a;; Ok (h1, Unwound)
        else '(e, d) <- cell_clone e d;; ps <- kid_ptrs d;; h1 <- incs h0 ps;; h2 <- dec h1 a;; Ok (h2, Done (e, d))) = Ok (h', r')
        /\ er h' = g /\ good h' /\ owrel r r').
    { clear E. cbv zeta. intros E. rewrite El in E. unfold er in E at 1. rewrite clones_hm, map_length in E. destruct (bomb (length (clones h))).
      - unfold er in E. rewrite dec_hm in E. destruct (dec _ a) as [h1|] eqn:Ed; cbn [rm_ bind] in *; [|discriminate].
        injection E as <- <-. eexists _, _. split; [reflexivity|]. split; auto. split; [|exact Logic.I].
        eapply good_sub; [exact Gl|eapply subn_dec; eauto].
      - destruct (cell_clone_ok _ _ _ _ Cr) as (e' & d' & -> & Cr'). cbn [bind]. rewrite (kid_ptrs_is _ _ _ _ Cr'). cbn [bind].
        unfold er in E. rewrite incs_hm in E.
        destruct (incs (log h (e, d)) (map Some ks)) as [h1|] eqn:Ei; cbn [rm_ bind] in *; [|discriminate].
        rewrite dec_hm in E. destruct (dec h1 a) as [h2|] eqn:Ed; cbn [rm_ bind] in *; [|discriminate].
        injection E as <- <-. eexists _, _. split; [reflexivity|]. split; auto. split.
        + eapply good_sub; [|eapply subn_dec; eauto]. eapply good_sub; [exact Gl|eapply subn_incs; eauto].
        + cbn [owrel]. now rewrite olists_somes. }
    destruct c as [|[|c]].
    - apply Sh. exact E.
    - unfold er in E. rewrite take_hm in E. unfold take in *. rewrite Gh in *. cbn [rm_ bind fst snd nd_data nd_kids nm] in *.
      injection E as <- <-. eexists _, _. split; [reflexivity|]. split; auto. split; [eapply good_sub; [exact G|apply subn_none]|].
      cbn [owrel]. now rewrite (ent_is _ _ _ _ Cr), olists_somes.
    - apply Sh. exact E.
  Qed.

  Lemma drops_sim h ps g : good h -> drops (er h) ps = Ok g -> exists h', drops h ps = Ok h' /\ er h' = g /\ good h'.
  Proof.
    intros G E. unfold er in E. rewrite drops_hm in E. apply rm_ok_inv in E as (h' & E & ->). exists h'. split; auto. split; auto.
    eapply good_sub; [exact G|eapply subn_drops; eauto].
  Qed.
  Lemma drop_sim h p g : good h -> drop (er h) p = Ok g -> exists h', drop h p = Ok h' /\ er h' = g /\ good h'.
  Proof. apply drops_sim. Qed.
  Lemma inc_sim h p g : good h -> inc (er h) p = Ok g -> exists h', inc h p = Ok h' /\ er h' = g /\ good h'.
  Proof.
    intros G E. unfold er in E. rewrite inc_hm in E. apply rm_ok_inv in E as (h' & E & ->). exists h'. split; auto. split; auto.
    eapply good_sub; [exact G|eapply subn_inc; eauto].
  Qed.
End Erase.
