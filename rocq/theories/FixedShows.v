(** The theorems about the array-based B-tree map in terms of [f_shows]. *)
From Coq Require Import List PeanoNat Bool Lia.
From Verif Require Import Base Spec SpecFacts Vec BTreeModel BTreeProofs BTreeProofs2
  FixedModel FixedSpec FixedProofs FixedProofs2 FixedProofs4.
Import ListNotations.

Section Holds.
  Context {K V : Type}.
  Notation MIN := MIN_OCCUPANCY.

  Lemma begins_arr {A} n s (l : list A) : begins n s l <-> arr n s l.
  Proof.
    unfold begins, arr. split; intros [H E]; split; auto.
    - exists (skipn (length l) s). rewrite <- E. now rewrite firstn_skipn.
    - destruct E as [j ->]. apply firstn_len. now rewrite map_length.
  Qed.
  Lemma interleave_weave {A} (es : list A) : forall ls, length ls = S (length es) -> interleave ls es = weave ls es.
  Proof.
    induction es as [|e es IH]; intros [|l ls] H; try discriminate.
    - destruct ls; [|discriminate]. cbn. now rewrite app_nil_r.
    - cbn in H. cbn. now rewrite IH by lia.
  Qed.

  Notation fnode := (fnode K V).
  Lemma holds_iff h : forall lo (n : fnode) l,
    holds lo h n l <-> exists t, repr n t /\ shape MIN lo h t /\ flat t = l.
  Proof.
    induction h as [|h IH]; intros lo n l; split.
    - intros H. inversion H as [lo' ks vs es B Hk Hv|]; subst. exists (BN l []).
      split; [|split; [now constructor|apply flat_leaf]]. constructor.
      split; [|split]; cbn [el_keys el_vals el_len]; auto; now apply begins_arr.
    - intros (t & R & S & <-). destruct (shape_0 _ _ _ S) as (es & -> & B). destruct n as [[ks vs ln] d].
      apply repr_iff in R as [(Hk & Hv & Hl) Hd]. destruct d as [d|]; [destruct Hd; congruence|]. cbn in Hk, Hv, Hl. subst ln.
      rewrite flat_leaf. constructor; auto; now apply begins_arr.
    - intros H. inversion H as [|lo' h' ks vs ps es ns ls B Hk Hv Ln Hp F]; subst.
      assert (X : exists ts, Forall2 repr ns ts /\ Forall (shape MIN MIN h) ts /\ map flat ts = ls).
      { clear -F IH. induction F as [|n l ns ls Hn F IHF]; [exists []; auto|].
        apply IH in Hn as (t & R & S & E). destruct IHF as (ts & R' & S' & E').
        exists (t :: ts). split; [auto|]. split; [auto|]. cbn. congruence. }
      destruct X as (ts & R & S & E). pose proof (Forall2_len _ _ _ R) as Lt.
      exists (BN es ts). split; [|split].
      + apply repr_iff. split; [split; [|split]; cbn [el_keys el_vals el_len]; auto; now apply begins_arr|].
        split; [intros ->; cbn in Lt; lia|]. exists ns. split; auto. split; [now apply begins_arr|auto].
      + constructor; auto. lia.
      + cbn [flat]. rewrite E. rewrite interleave_weave; auto. rewrite <- E, map_length. lia.
    - intros (t & R & S & <-). destruct (shape_S _ _ _ _ S) as (es & ks & -> & B & Lk & Fs). destruct n as [[kk vs ln] d].
      apply repr_iff in R as [(Hk & Hv & Hl) Hd]. destruct d as [[ps kl]|]; cbn in Hd; [|subst ks; discriminate].
      destruct Hd as (_ & ns & [Hp Hkl] & F). cbn in Hk, Hv, Hl, Hp, Hkl. subst ln kl.
      pose proof (Forall2_len _ _ _ F) as Ln. cbn [flat].
      rewrite <- interleave_weave by (rewrite map_length; lia).
      constructor; auto; try (now apply begins_arr); [lia|].
      clear -F Fs IH. induction F as [|n t ns ts Hn F IHF]; [constructor|]. inversion Fs; subst.
      cbn [map]. constructor; auto. apply IH. eauto.
  Qed.
End Holds.

Section Shows.
  Context {K V Q : Type} (bor : K -> Q) (cmp : Q -> Q -> comparison).
  Notation f_shows := (@f_shows K V Q bor cmp).
  Notation f_is := (@f_is K V Q bor cmp).
  Notation MIN := MIN_OCCUPANCY.

  Lemma f_shows_is m l : f_shows m l <-> f_is m l.
  Proof.
    destruct m as [r len]. unfold FixedSpec.f_shows. cbn [fm_root fm_len]. split.
    - intros (A & L & R). destruct r as [n|].
      + destruct R as [h R]. apply holds_iff in R as (t & R & S & E).
        exists (BMap len (Some t)). split; [split; auto|]. unfold BTreeProofs2.valid, contents. cbn. rewrite E. repeat split; eauto.
      + subst l. exists (BMap len None). split; [split; cbn; auto|]. unfold BTreeProofs2.valid, contents. cbn. auto.
    - intros (a & [L R] & (A & La & Va) & <-). cbn in L, R. split; auto. split; [congruence|].
      unfold contents. destruct r as [n|], (bm_root a) as [t|]; try easy.
      destruct Va as [h S]. exists h. apply holds_iff. eauto.
  Qed.

  Context (laws : order_laws cmp) (sk : bool).
  Lemma f_new_l : f_shows f_new [] /\ forall m, f_shows (f_clear m) [].
  Proof. split; [|intros m]; apply f_shows_is, f_is_empty_map. Qed.
  Lemma f_insert_l m l k v : f_shows m l ->
    exists m', f_insert bor cmp sk m k v = Ok (m', s_get bor cmp (bor k) l) /\ f_shows m' (s_insert bor cmp k v l).
  Proof. rewrite f_shows_is. intros H. destruct (f_insert_ok bor cmp laws sk m l k v H) as (m' & E & H'). exists m'. now rewrite f_shows_is. Qed.
  Lemma f_remove_entry_l m l q : f_shows m l ->
    exists m', f_remove_entry bor cmp sk m q = Ok (m', s_find bor cmp q l) /\ f_shows m' (s_remove bor cmp q l).
  Proof. rewrite f_shows_is. intros H. destruct (f_remove_entry_ok bor cmp laws sk m l q H) as (m' & E & H'). exists m'. now rewrite f_shows_is. Qed.
  Lemma f_remove_l m l q : f_shows m l ->
    exists m', f_remove bor cmp sk m q = Ok (m', s_get bor cmp q l) /\ f_shows m' (s_remove bor cmp q l).
  Proof.
    intros H. destruct (f_remove_entry_l m l q H) as (m' & E & H'). exists m'. split; auto. unfold f_remove. rewrite E. reflexivity.
  Qed.
  Lemma f_get_l m l q : f_shows m l -> f_get bor cmp sk m q = Ok (s_get bor cmp q l).
  Proof. rewrite f_shows_is. now apply f_get_ok. Qed.
  Lemma f_get_mut_l m l q w : f_shows m l ->
    exists m', f_get_mut bor cmp sk m q w = Ok (m', s_get bor cmp q l) /\ f_shows m' (s_update bor cmp q w l).
  Proof. rewrite f_shows_is. intros H. destruct (f_get_mut_ok bor cmp laws sk m l q w H) as (m' & E & H'). exists m'. now rewrite f_shows_is. Qed.
  Lemma f_len_l m l : f_shows m l -> f_len m = length l /\ f_is_empty m = (length l =? 0).
  Proof. intros (_ & L & _). unfold f_len, f_is_empty. now rewrite L. Qed.
  Lemma f_extend_l m l ps : f_shows m l ->
    exists m', f_extend bor cmp sk m ps = Ok m' /\ f_shows m' (s_extend bor cmp l ps).
  Proof. rewrite f_shows_is. intros H. destruct (f_extend_ok bor cmp laws sk ps m l H) as (m' & E & H'). exists m'. now rewrite f_shows_is. Qed.
  Lemma f_from_iter_l ps : exists m', f_from_iter bor cmp sk ps = Ok m' /\ f_shows m' (s_extend bor cmp [] ps).
  Proof. apply f_extend_l, f_new_l. Qed.

  Lemma f_step_l m l o : f_shows m l ->
    exists m', f_step bor cmp sk m o = Ok (m', snd (s_f_step bor cmp l o)) /\ f_shows m' (fst (s_f_step bor cmp l o)).
  Proof.
    intros H. destruct o; cbn [f_step s_f_step fst snd].
    - destruct (f_insert_l m l k v H) as (m' & -> & H'). cbn [bind]. eauto.
    - destruct (f_remove_l m l q H) as (m' & -> & H'). cbn [bind]. eauto.
    - rewrite (f_get_l m l q H). cbn [bind]. eauto.
    - destruct (f_get_mut_l m l q w H) as (m' & -> & H'). cbn [bind]. eauto.
    - rewrite (proj1 (f_len_l m l H)). eauto.
    - rewrite (proj2 (f_len_l m l H)). eauto.
    - eexists. split; [reflexivity|]. apply f_new_l.
    - destruct (f_extend_l m l ps H) as (m' & -> & H'). cbn [bind]. eauto.
  Qed.
  Lemma f_run_l os : forall m l, f_shows m l ->
    exists m', f_run bor cmp sk m os = Ok (m', snd (s_f_run bor cmp l os)) /\ f_shows m' (fst (s_f_run bor cmp l os)).
  Proof.
    induction os as [|o os IH]; intros m l H; cbn [f_run s_f_run]; [cbn; eauto|].
    destruct (f_step_l m l o H) as (m1 & -> & H1). cbn [bind].
    destruct (s_f_step bor cmp l o) as [l1 r]. cbn [fst snd] in *.
    destruct (IH m1 l1 H1) as (m2 & -> & H2). cbn [bind]. destruct (s_f_run bor cmp l1 os) as [l2 rs]. cbn [fst snd] in *. eauto.
  Qed.
End Shows.
