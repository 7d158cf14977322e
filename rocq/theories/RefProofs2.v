(* Every step of a fair execution keeps the invariant *)
From Verif Require Import Base RefModel RefSpec RefProofs.

Lemma obj_refs s t o x y tx ty p :
  nth_error (s_thr s) t = Some tx -> nth_error (s_objs s) o = Some x ->
  refs (set_thr (set_obj s o y) t ty) p = refs s p - tw p tx + tw p ty - hw p x + hw p y.
Proof.
  intros E F. rewrite !refs_eq. unfold set_thr, set_obj. cbn [s_thr s_objs].
  rewrite (total_upd _ _ _ _ _ E), (total_upd _ _ _ _ _ F). lia.
Qed.
Lemma thr_frees s t ty tx p : nth_error (s_thr s) t = Some tx -> frees (set_thr s t ty) p = frees s p - fw p tx + fw p ty.
Proof. intros E. unfold frees, set_thr. cbn [s_thr]. rewrite (total_upd _ _ _ _ _ E). lia. Qed.
Lemma obj_frees s o y p : frees (set_obj s o y) p = frees s p.
Proof. reflexivity. Qed.
Lemma new_refs s x p : refs (new_obj s x) p = refs s p + hw p x.
Proof. rewrite !refs_eq. unfold new_obj. cbn [s_thr s_objs]. rewrite total_app. cbn [total]. lia. Qed.
Lemma thr_refs s t ty tx p : nth_error (s_thr s) t = Some tx -> refs (set_thr s t ty) p = refs s p - tw p tx + tw p ty.
Proof. intros E. rewrite !refs_eq. unfold set_thr. cbn [s_thr s_objs]. rewrite (total_upd _ _ _ _ _ E). lia. Qed.

Lemma inv_inc s t own o k : Inv s -> nth_error (s_thr s) t = Some (Thread own (CInc o :: k)) -> refs s o + 1 < 2^31 ->
  exists s', exec s t own (CInc o) k = Ok s' /\ Inv s'.
Proof.
  intros V E F. pose proof (I_just s V t _ E) as J. cbn [t_own t_code just] in J. destruct J as [M J].
  assert (R : 1 <= refs s o) by exact (own_refs s t _ o E M).
  destruct (alive_get s o V R) as (x & X & G & L & C & B & F0).
  unfold exec. rewrite G. cbn [bind]. eexists. split; [reflexivity|].
  set (y := Obj (o_class x) (s32 (o_count x + 1)) (o_held x) true). set (ty := Thread (o :: own) k).
  assert (RR : forall p, refs (set_thr (set_obj s o y) t ty) p = refs s p + if Nat.eqb o p then 1 else 0).
  { intros p. rewrite (obj_refs s t o x y _ ty p E X). unfold tw, hw, y, ty. cbn [t_own t_code times total pending o_held]. lia. }
  assert (FF : forall p, frees (set_thr (set_obj s o y) t ty) p = frees s p).
  { intros p. rewrite (thr_frees (set_obj s o y) t ty (Thread own (CInc o :: k)) p E), obj_frees. unfold fw, ty. cbn [t_code total isfree]. lia. }
  constructor.
  - intros p z Z. rewrite RR, FF. cbn [set_thr set_obj s_objs s_trace] in Z |- *. destruct (nth_upd _ _ _ _ _ _ X Z) as [[-> ->]|[N Z']].
    + rewrite Nat.eqb_refl. left. destruct (I_obj s V o x X) as [K|[K|K]]; [|lia|lia]. unfold y. cbn [o_live o_count o_held].
      rewrite s32_id by (unfold in_s32; lia). intuition lia.
    + destruct (Nat.eqb_spec o p); [congruence|]. rewrite Z.add_0_r. exact (I_obj s V p z Z').
  - intros p Lp. rewrite RR, FF. cbn [set_thr set_obj s_objs s_trace] in Lp |- *. rewrite upd_length in Lp.
    pose proof (nth_len _ _ _ X). destruct (Nat.eqb_spec o p); [lia|]. rewrite Z.add_0_r. exact (I_none s V p Lp).
  - intros u z Z. cbn [set_thr set_obj s_thr] in Z. destruct (nth_upd _ _ _ _ _ _ E Z) as [[-> ->]|[N Z']]; [exact J|exact (I_just s V u z Z')].
  - intros u z p Z N. cbn [set_thr set_obj s_thr s_trace] in Z |- *. destruct (nth_upd _ _ _ _ _ _ E Z) as [[-> ->]|[_ Z']].
    + refine (I_mine s V t _ p E _). right. exact N.
    + exact (I_mine s V u z p Z' N).
  - exact (I_wf s V).
Qed.

Lemma inv_dec s t own o d k : Inv s -> nth_error (s_thr s) t = Some (Thread own (CDec o d :: k)) ->
  exists s', exec s t own (CDec o d) k = Ok s' /\ Inv s' /\
    (s_trace s' = s_trace s /\ 1 < refs s o \/ s_trace s' = ELast t o :: s_trace s /\ refs s o = 1 /\ refs s' o = 0).
Proof.
  intros V E. pose proof (I_just s V t _ E) as J. cbn [t_own t_code just] in J. destruct J as [JD J].
  assert (R : 1 <= refs s o) by (apply (dec_refs s t _ o d E); left; reflexivity).
  destruct (alive_get s o V R) as (x & X & G & L & C & B & F0).
  unfold exec. rewrite G. cbn [bind]. cbv zeta. rewrite C, (s32_id (refs s o - 1)) by (unfold in_s32; lia).
  pose proof (I_obj s V o x X) as K. destruct K as [K|[K|K]]; [|lia|lia]. destruct K as (_ & _ & _ & _ & NL & NF).
  destruct (Z.eqb_spec (refs s o - 1) 0) as [E0|N0].
  - eexists. split; [reflexivity|].
    set (y := Obj (o_class x) (refs s o - 1) [] true). set (ty := Thread own (last_code s (o_class x) o (o_held x) ++ k)).
    assert (RR : forall p, refs (emit (set_thr (set_obj s o y) t ty) (ELast t o)) p = refs s p - if Nat.eqb o p then 1 else 0).
    { intros p. change (refs (set_thr (set_obj s o y) t ty) p = refs s p - if Nat.eqb o p then 1 else 0).
      rewrite (obj_refs s t o x y _ ty p E X). unfold tw, hw, y, ty. cbn [t_own t_code times total pending o_held].
      rewrite total_app, last_pending. lia. }
    assert (FF : forall p, frees (emit (set_thr (set_obj s o y) t ty) (ELast t o)) p = frees s p + if Nat.eqb o p then 1 else 0).
    { intros p. change (frees (set_thr (set_obj s o y) t ty) p = frees s p + if Nat.eqb o p then 1 else 0).
      rewrite (thr_frees (set_obj s o y) t ty (Thread own (CDec o d :: k)) p E), obj_frees. unfold fw, ty. cbn [t_code total isfree].
      rewrite total_app, last_isfree. lia. }
    split.
    2:{ right. split; [reflexivity|]. split; [lia|]. rewrite RR, Nat.eqb_refl. lia. }
    constructor.
    + intros p z Z. rewrite RR, FF. cbn [emit set_thr set_obj s_objs s_trace] in Z |- *. cbn [total islast isfreed].
      destruct (nth_upd _ _ _ _ _ _ X Z) as [[-> ->]|[N Z']].
      * rewrite Nat.eqb_refl. right. left. unfold y. cbn [o_live o_count o_held]. rewrite NL, NF, F0.
        split; [reflexivity|]. split; [lia|]. split; [lia|]. split; [reflexivity|]. lia.
      * destruct (Nat.eqb_spec o p); [congruence|]. rewrite Z.sub_0_r, Z.add_0_r. exact (I_obj s V p z Z').
    + intros p Lp. rewrite RR, FF. cbn [emit set_thr set_obj s_objs s_trace] in Lp |- *. cbn [total islast isfreed]. rewrite upd_length in Lp.
      pose proof (nth_len _ _ _ X). destruct (Nat.eqb_spec o p); [lia|]. rewrite Z.sub_0_r, Z.add_0_r. exact (I_none s V p Lp).
    + intros u z Z. cbn [emit set_thr set_obj s_thr] in Z. destruct (nth_upd _ _ _ _ _ _ E Z) as [[-> ->]|[N Z']]; [|exact (I_just s V u z Z')].
      unfold ty. cbn [t_own t_code]. apply just_last. exact J.
    + intros u z p Z N. cbn [emit set_thr set_obj s_thr s_trace] in Z |- *. destruct (nth_upd _ _ _ _ _ _ E Z) as [[-> ->]|[_ Z']].
      * unfold ty in N. cbn [t_code] in N. apply in_last_free in N as [->|N]; [left; reflexivity|right]. refine (I_mine s V t _ p E _). right. exact N.
      * right. exact (I_mine s V u z p Z' N).
    + cbn [emit set_thr set_obj s_trace wf_tr]. split; [exact I|exact (I_wf s V)].
  - eexists. split; [reflexivity|].
    set (y := Obj (o_class x) (refs s o - 1) (o_held x) true). set (ty := Thread own ((if d then [CRead o] else []) ++ k)).
    assert (RR : forall p, refs (set_thr (set_obj s o y) t ty) p = refs s p - if Nat.eqb o p then 1 else 0).
    { intros p. rewrite (obj_refs s t o x y _ ty p E X). unfold tw, hw, y, ty. cbn [t_own t_code times total pending o_held]. destruct d; cbn [app total pending]; lia. }
    assert (FF : forall p, frees (set_thr (set_obj s o y) t ty) p = frees s p).
    { intros p. rewrite (thr_frees (set_obj s o y) t ty (Thread own (CDec o d :: k)) p E), obj_frees. unfold fw, ty. cbn [t_code total isfree]. destruct d; cbn [app total isfree]; lia. }
    split.
    2:{ left. split; [reflexivity|lia]. }
    constructor.
    + intros p z Z. rewrite RR, FF. cbn [set_thr set_obj s_objs s_trace] in Z |- *.
      destruct (nth_upd _ _ _ _ _ _ X Z) as [[-> ->]|[N Z']].
      * rewrite Nat.eqb_refl. left. unfold y. cbn [o_live o_count o_held]. rewrite NL, NF, F0. intuition lia.
      * destruct (Nat.eqb_spec o p); [congruence|]. rewrite Z.sub_0_r. exact (I_obj s V p z Z').
    + intros p Lp. rewrite RR, FF. cbn [set_thr set_obj s_objs s_trace] in Lp |- *. rewrite upd_length in Lp.
      pose proof (nth_len _ _ _ X). destruct (Nat.eqb_spec o p); [lia|]. rewrite Z.sub_0_r. exact (I_none s V p Lp).
    + intros u z Z. cbn [set_thr set_obj s_thr] in Z. destruct (nth_upd _ _ _ _ _ _ E Z) as [[-> ->]|[N Z']]; [|exact (I_just s V u z Z')].
      unfold ty. cbn [t_own t_code]. destruct d; cbn [app just]; auto.
    + intros u z p Z N. cbn [set_thr set_obj s_thr s_trace] in Z |- *. destruct (nth_upd _ _ _ _ _ _ E Z) as [[-> ->]|[_ Z']].
      * refine (I_mine s V t _ p E _). right. unfold ty in N. destruct d; cbn [t_code app In] in N; [destruct N as [N|N]; [discriminate|]|]; exact N.
      * exact (I_mine s V u z p Z' N).
    + exact (I_wf s V).
Qed.

Lemma inv_free s t own o k : Inv s -> nth_error (s_thr s) t = Some (Thread own (CFree o :: k)) ->
  exists s', exec s t own (CFree o) k = Ok s' /\ Inv s'.
Proof.
  intros V E. pose proof (I_just s V t _ E) as J. cbn [t_own t_code just] in J.
  assert (R : 1 <= frees s o) by (apply (free_frees s t _ o E); left; reflexivity).
  destruct (live_get s o V) as (x & X & L & G); [pose proof (refs_nonneg s o); lia|].
  unfold exec. rewrite G. cbn [bind]. eexists. split; [reflexivity|].
  pose proof (I_obj s V o x X) as K. destruct K as [K|[K|K]]; [lia| |lia]. destruct K as (_ & R0 & C0 & H0 & F1 & NL & NF).
  set (y := Obj (o_class x) (o_count x) [] false). set (ty := Thread own k).
  assert (RR : forall p, refs (emit (set_thr (set_obj s o y) t ty) (EFree t o)) p = refs s p).
  { intros p. change (refs (set_thr (set_obj s o y) t ty) p = refs s p).
    rewrite (obj_refs s t o x y _ ty p E X). unfold tw, hw, y, ty. rewrite H0. cbn [t_own t_code times total pending o_held]. lia. }
  assert (FF : forall p, frees (emit (set_thr (set_obj s o y) t ty) (EFree t o)) p = frees s p - if Nat.eqb o p then 1 else 0).
  { intros p. change (frees (set_thr (set_obj s o y) t ty) p = frees s p - if Nat.eqb o p then 1 else 0).
    rewrite (thr_frees (set_obj s o y) t ty (Thread own (CFree o :: k)) p E), obj_frees. unfold fw, ty. cbn [t_code total isfree]. lia. }
  constructor.
  - intros p z Z. rewrite RR, FF. cbn [emit set_thr set_obj s_objs s_trace] in Z |- *. cbn [total islast isfreed].
    destruct (nth_upd _ _ _ _ _ _ X Z) as [[-> ->]|[N Z']].
    + rewrite Nat.eqb_refl. right. right. unfold y. cbn [o_live o_count o_held]. rewrite NL, NF, F1.
      split; [reflexivity|]. split; [lia|]. split; [reflexivity|]. lia.
    + destruct (Nat.eqb_spec o p); [congruence|]. rewrite Z.sub_0_r. exact (I_obj s V p z Z').
  - intros p Lp. rewrite RR, FF. cbn [emit set_thr set_obj s_objs s_trace] in Lp |- *. cbn [total islast isfreed]. rewrite upd_length in Lp.
    pose proof (nth_len _ _ _ X). destruct (Nat.eqb_spec o p); [lia|]. rewrite Z.sub_0_r. exact (I_none s V p Lp).
  - intros u z Z. cbn [emit set_thr set_obj s_thr] in Z. destruct (nth_upd _ _ _ _ _ _ E Z) as [[-> ->]|[N Z']]; [exact J|exact (I_just s V u z Z')].
  - intros u z p Z N. cbn [emit set_thr set_obj s_thr s_trace] in Z |- *. destruct (nth_upd _ _ _ _ _ _ E Z) as [[-> ->]|[_ Z']]; right.
    + refine (I_mine s V t _ p E _). right. exact N.
    + exact (I_mine s V u z p Z' N).
  - cbn [emit set_thr set_obj s_trace wf_tr]. split; [|exact (I_wf s V)]. refine (I_mine s V t _ o E _). left. reflexivity.
Qed.

(* A new object, which has the references in held *)
Lemma inv_new s t x c held own k : Inv s -> nth_error (s_thr s) t = Some x ->
  (forall p, tw p x = times p own + total (pending p) k + times p held) -> (forall p, fw p x = total (isfree p) k) ->
  just (length (s_objs s) :: own) k -> (forall p, In (CFree p) k -> In (CFree p) (t_code x)) ->
  Inv (set_thr (new_obj s (Obj c 1 held true)) t (Thread (length (s_objs s) :: own) k)).
Proof.
  intros V E TW FW J M. set (n := length (s_objs s)). set (y := Obj c 1 held true). set (ty := Thread (n :: own) k).
  assert (RR : forall p, refs (set_thr (new_obj s y) t ty) p = refs s p + if Nat.eqb n p then 1 else 0).
  { intros p. rewrite (thr_refs (new_obj s y) t ty x p E), new_refs, TW. unfold tw, hw, y, ty. cbn [t_own t_code times o_held]. lia. }
  assert (FF : forall p, frees (set_thr (new_obj s y) t ty) p = frees s p).
  { intros p. rewrite (thr_frees (new_obj s y) t ty x p E). change (frees (new_obj s y) p) with (frees s p). rewrite FW. unfold fw, ty. cbn [t_code]. lia. }
  constructor.
  - intros p z Z. rewrite RR, FF. cbn [set_thr new_obj s_objs s_trace] in Z |- *. cbn [total islast isfreed]. rewrite !Z.add_0_l.
    pose proof (nth_len _ _ _ Z) as Lp. rewrite app_length in Lp. cbn [length] in Lp.
    destruct (Nat.eqb_spec n p) as [<-|N].
    + unfold n in Z. rewrite nth_error_app2, Nat.sub_diag in Z by lia. injection Z as <-.
      destruct (I_none s V n) as (R0 & F0 & L0 & D0); [unfold n; lia|]. left. unfold y. cbn [o_live o_count]. rewrite R0, F0, L0, D0. intuition lia.
    + rewrite nth_error_app1 in Z by lia. rewrite Z.add_0_r. exact (I_obj s V p z Z).
  - intros p Lp. rewrite RR, FF. cbn [set_thr new_obj s_objs s_trace] in Lp |- *. cbn [total islast isfreed]. rewrite !Z.add_0_l.
    rewrite app_length in Lp. cbn [length] in Lp. destruct (Nat.eqb_spec n p); [lia|]. rewrite Z.add_0_r. apply (I_none s V). lia.
  - intros u z Z. cbn [set_thr new_obj s_thr] in Z. destruct (nth_upd _ _ _ _ _ _ E Z) as [[-> ->]|[N Z']]; [exact J|exact (I_just s V u z Z')].
  - intros u z p Z N. cbn [set_thr new_obj s_thr s_trace] in Z |- *. right. destruct (nth_upd _ _ _ _ _ _ E Z) as [[-> ->]|[_ Z']].
    + exact (I_mine s V t x p E (M p N)).
    + exact (I_mine s V u z p Z' N).
  - cbn [set_thr new_obj s_trace wf_tr]. split; [exact I|exact (I_wf s V)].
Qed.

Lemma inv_exec s t own i k : Inv s -> nth_error (s_thr s) t = Some (Thread own (i :: k)) -> few s (AStep t) ->
  exists s', exec s t own i k = Ok s' /\ Inv s'.
Proof.
  intros V E F. pose proof (I_just s V t _ E) as J. cbn [t_own t_code] in J.
  destruct i as [o|o|o|o d|o|o].
  - cbn [just] in J. destruct J as [M J].
    assert (R : 1 <= refs s o) by (destruct M as [M|[d M]]; [exact (own_refs s t _ o E M)|apply (dec_refs s t _ o d E); right; exact M]).
    destruct (alive_get s o V R) as (x & X & G & L & C & _). unfold exec. rewrite G. cbn [bind].
    destruct (Z.leb_spec (o_count x) 0); [lia|]. eexists. split; [reflexivity|].
    apply (inv_thr s t _ _ V E); [reflexivity|reflexivity|exact J|]. intros p N. right. exact N.
  - cbn [just] in J. destruct J as [M J].
    assert (R : 1 <= refs s o + frees s o).
    { pose proof (refs_nonneg s o). pose proof (frees_nonneg s o). destruct M as [M|[[d M]|M]].
      - pose proof (own_refs s t _ o E M). lia.
      - pose proof (dec_refs s t _ o d E (or_intror M)). lia.
      - pose proof (free_frees s t _ o E (or_intror M)). lia. }
    destruct (live_get s o V R) as (x & X & L & G). unfold exec. rewrite G. cbn [bind]. eexists. split; [reflexivity|].
    apply (inv_thr s t _ _ V E); [reflexivity|reflexivity|exact J|]. intros p N. right. exact N.
  - apply inv_inc; [exact V|exact E|]. cbn [few] in F. rewrite E in F. exact F.
  - destruct (inv_dec s t own o d k V E) as (s' & G & V' & _). exists s'. auto.
  - cbn [just] in J. destruct J as [M J]. eexists. split; [reflexivity|].
    apply (inv_new s t _ Ints [o] (drop o own) k V E).
    + intros p. unfold tw. cbn [t_own t_code total pending times]. rewrite (times_drop o p own M). lia.
    + reflexivity.
    + apply (just_mono k (drop o own)); [exact J|]. intros p. cbn [times]. destruct (Nat.eqb _ p); lia.
    + intros p N. right. exact N.
  - exact (inv_free s t own o k V E).
Qed.

Lemma just_ref s o own : In o own -> just own (ref_code s o).
Proof. intros M. unfold ref_code, check. destruct (s_debug s && checks (class_of s o)); cbn [app just]; auto. Qed.

Lemma ref_w f s o : f (CCheck o) = 0 -> f (CInc o) = 0 -> total f (ref_code s o) = 0.
Proof. intros A B. unfold ref_code. rewrite total_app, check_w by exact A. cbn [total]. lia. Qed.
Lemma ref_nofree s o p : ~ In (CFree p) (ref_code s o).
Proof. unfold ref_code, check. destruct (s_debug s && checks (class_of s o)); cbn [app In]; intuition discriminate. Qed.
Lemma unref_nofree s o p : ~ In (CFree p) (unref_code s o).
Proof. unfold unref_code, check. destruct (s_debug s && checks (class_of s o)); cbn [app In]; intuition discriminate. Qed.

Lemma inv_step s a : Inv s -> fair s a -> exists s', step s a = Ok s' /\ Inv s'.
Proof.
  intros V (D & F & ND). destruct a as [t c|t o|t o|t o|t o|t o|t p o|t u o|t]; cbn [step disciplined spare] in *.
  9:{ destruct (nth_error (s_thr s) t) as [[own [|i k]]|] eqn:E; [eauto| |eauto]. exact (inv_exec s t own i k V E F). }
  all: destruct (nth_error (s_thr s) t) as [[own [|i k]]|] eqn:E; [|eauto|eauto].
  - eexists. split; [reflexivity|]. apply (inv_new s t _ c [] own [] V E); [|reflexivity|exact I|auto].
    intros p. unfold tw. cbn [t_own t_code total times]. lia.
  - destruct D as (x & E' & M). assert (x = Thread own []) by congruence. subst x. cbn [t_own] in M.
    eexists. split; [reflexivity|]. apply (inv_thr s t _ _ V E).
    + intros p. unfold tw. cbn [t_own t_code total]. rewrite ref_w by reflexivity. reflexivity.
    + intros p. unfold fw. cbn [t_code]. rewrite ref_w by reflexivity. reflexivity.
    + exact (just_ref s o own M).
    + intros p N. destruct (ref_nofree s o p N).
  - destruct D as (x & E' & M). assert (x = Thread own []) by congruence. subst x. cbn [t_own] in M.
    eexists. split; [reflexivity|]. apply (inv_thr s t _ _ V E).
    + intros p. unfold tw. cbn [t_own t_code total]. rewrite unref_pending, (times_drop o p own M). lia.
    + intros p. unfold fw. cbn [t_code]. rewrite unref_isfree. reflexivity.
    + cbn [t_own t_code]. rewrite <- (app_nil_r (unref_code s o)). apply just_unref. exact I.
    + intros p N. destruct (unref_nofree s o p N).
  - destruct D as [(x & E' & M) _]. destruct ND as (x' & E'' & M'). assert (x = Thread own []) by congruence. assert (x' = Thread own []) by congruence.
    subst x x'. cbn [t_own] in M, M'. eexists. split; [reflexivity|].
    assert (M2 : In o (drop o own)) by (apply in_times; rewrite (times_drop o o own M), Nat.eqb_refl; lia).
    apply (inv_thr s t _ _ V E).
    + intros p. unfold tw. cbn [t_own t_code total unref_data_code pending]. rewrite (times_drop o p own M). lia.
    + intros p. reflexivity.
    + cbn [t_own t_code unref_data_code just]. auto.
    + intros p N. cbn [t_code unref_data_code In] in N. intuition discriminate.
  - destruct D as [(x & E' & M) _]. assert (x = Thread own []) by congruence. subst x. cbn [t_own] in M.
    eexists. split; [reflexivity|]. apply (inv_thr s t _ _ V E); [reflexivity|reflexivity| |].
    + cbn [t_own t_code from_code just In]. auto 6.
    + intros p N. cbn [t_code from_code In] in N. intuition discriminate.
  - destruct D as (x & E' & M). assert (x = Thread own []) by congruence. subst x. cbn [t_own] in M.
    eexists. split; [reflexivity|]. apply (inv_thr s t _ _ V E); [reflexivity|reflexivity| |].
    + cbn. auto.
    + intros p N. cbn [t_code In] in N. intuition discriminate.
  - destruct D as ((x & E' & M) & (x' & E'' & M') & _). assert (x = Thread own []) by congruence. assert (x' = Thread own []) by congruence.
    subst x x'. cbn [t_own] in M, M'. pose proof (own_refs s t _ p E M) as R.
    destruct (alive_get s p V R) as (y & Y & G & L & _). rewrite G. cbn [bind]. eexists. split; [reflexivity|].
    apply (inv_same s); [exact V| | |reflexivity| | |].
    + cbn [set_thr set_obj s_objs]. apply upd_length.
    + intros q z Z. cbn [set_thr set_obj s_objs] in Z. destruct (nth_upd _ _ _ _ _ _ Y Z) as [[-> ->]|[N Z']].
      * exists y. cbn [o_count o_live]. auto.
      * exists z. auto.
    + intros q. rewrite (obj_refs s t p y _ _ _ q E Y). unfold tw, hw. cbn [t_own t_code total o_held]. rewrite times_app, (times_drop o q own M').
      cbn [times]. lia.
    + intros q. rewrite (thr_frees (set_obj s p _) t _ (Thread own []) q E), obj_frees. unfold fw. cbn [t_code]. lia.
    + intros u z Z. cbn [set_thr set_obj s_thr] in Z. destruct (nth_upd _ _ _ _ _ _ E Z) as [[-> ->]|[N Z']].
      * split; [exact I|]. intros q Q. destruct Q.
      * split; [exact (I_just s V u z Z')|]. intros q Q. exists z. auto.
  - destruct D as (x & E' & M). assert (x = Thread own []) by congruence. subst x. cbn [t_own] in M.
    destruct (nth_error (s_thr s) u) as [[l k]|] eqn:U; [|eauto]. destruct (Nat.eqb_spec t u) as [|N]; [eauto|].
    assert (U' : nth_error (s_thr (set_thr s t (Thread (drop o own) []))) u = Some (Thread l k))
      by (cbn [set_thr s_thr]; rewrite nth_error_upd_ne by exact N; exact U).
    eexists. split; [reflexivity|]. apply (inv_same s); [exact V|reflexivity| |reflexivity| | |].
    + intros q z Z. exists z. auto.
    + intros q. rewrite (thr_refs (set_thr s t (Thread (drop o own) [])) u _ _ q U'), (thr_refs s t _ _ q E).
      unfold tw. cbn [t_own t_code total times]. rewrite (times_drop o q own M). lia.
    + intros q. rewrite (thr_frees (set_thr s t (Thread (drop o own) [])) u _ _ q U'), (thr_frees s t _ _ q E). unfold fw. cbn [t_code total]. lia.
    + intros v z Z. cbn [set_thr s_thr] in Z. destruct (nth_upd _ _ _ _ _ _ U' Z) as [[-> ->]|[N1 Z1]].
      * split.
        -- apply (just_mono k l); [exact (I_just s V u _ U)|]. intros q. cbn [t_own times]. destruct (Nat.eqb o q); lia.
        -- intros q Q. eexists. split; [exact U|exact Q].
      * cbn [set_thr s_thr] in Z1. destruct (nth_upd _ _ _ _ _ _ E Z1) as [[-> ->]|[N2 Z2]].
        -- split; [exact I|]. intros q Q. destruct Q.
        -- split; [exact (I_just s V v z Z2)|]. intros q Q. exists z. auto.
Qed.

Lemma inv_run l : forall s, Inv s -> all_along fair s l -> exists s', run s l = Ok s' /\ Inv s'.
Proof.
  induction l as [|a l IH]; intros s V F; [exists s; auto|]. destruct F as [Fa F]. destruct (inv_step s a V Fa) as (s1 & E & V1).
  rewrite E in F. cbn [run]. rewrite E. cbn [bind]. exact (IH s1 V1 F).
Qed.

Lemma inv_start d n : Inv (start d n).
Proof.
  assert (T : forall f : thread -> Z, f (Thread [] []) = 0 -> total f (repeat (Thread [] []) n) = 0)
    by (intros f F; induction n; cbn [repeat total]; lia).
  assert (X : forall t x, nth_error (repeat (Thread [] []) n) t = Some x -> x = Thread [] [])
    by (intros t x E; apply nth_error_In in E; exact (repeat_spec _ _ _ E)).
  constructor; cbn [start s_objs s_trace s_thr].
  - intros o x E. destruct o; discriminate.
  - intros o _. rewrite refs_eq. unfold frees. cbn [start s_objs s_trace s_thr total]. rewrite !T by reflexivity. lia.
  - intros t x E. rewrite (X t x E). exact I.
  - intros t x o E M. rewrite (X t x E) in M. destruct M.
  - exact I.
Qed.

Lemma inv_reach d n l s : all_along fair (start d n) l -> run (start d n) l = Ok s -> Inv s.
Proof. intros F E. destruct (inv_run l _ (inv_start d n) F) as (s' & E' & V). assert (s' = s) by congruence. subst. exact V. Qed.
