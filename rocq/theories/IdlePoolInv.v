(* Every step of every execution of the idle pool keeps the invariant *)
From Verif Require Import Base IdlePoolModel IdlePoolSpec IdlePoolProofs.
From Coq Require Import Permutation.

Lemma filter_top f k : filter isb (f :: k) = if isb f then f :: filter isb k else filter isb k. Proof. reflexivity. Qed.
Lemma nodup_parts {A} (l l' : list A) : NoDup (l ++ l') -> NoDup l /\ NoDup l' /\ forall x, In x l -> ~ In x l'.
Proof.
  induction l as [|a l IH]; cbn; intros N. { repeat split; auto. constructor. }
  inversion N as [|? ? Na N']; subst. destruct (IH N') as (A1 & A2 & A3). split; [constructor; auto; intros I; apply Na, in_app_iff; auto|]. split; auto.
  intros x [->|I]; auto. intros I. apply Na, in_app_iff. auto.
Qed.
Lemma nodup_join {A} (l l' : list A) : NoDup l -> NoDup l' -> (forall x, In x l -> ~ In x l') -> NoDup (l ++ l').
Proof.
  induction l as [|a l IH]; cbn; auto. intros N N' H. inversion N; subst. constructor; auto.
  intros I. apply in_app_iff in I. destruct I; auto. eapply H; eauto.
Qed.

(* the innermost function of a thread is replaced *)
Lemma INV_swap h oq ks tr P t f k f' D e :
  INV h oq ks tr ((f, D) :: P) -> forall R, nth_error ks t = Some (f :: k) -> (forall k', Permutation (concat (upd ks t k')) (k' ++ R)) ->
  Permutation (map fst P) (k ++ R) -> fitems h (e ++ tr) f' D -> waiting (e ++ tr) = waiting tr -> good (e ++ tr) ->
  (forall i d kk, In (EAdd i d kk) (e ++ tr) <-> In (EAdd i d kk) tr) ->
  (forall u, u <> t -> batches u (e ++ tr) = batches u tr) ->
  (forall x, destroyed x (e ++ tr) -> ~ destroyed x tr -> In x D) ->
  (forall o, Forall2 (bmatch h) (filter isb (f :: k)) (batches t tr) -> batches t tr = o -> Forall2 (bmatch h) (filter isb (f' :: k)) (batches t (e ++ tr))) ->
  INV h oq (upd ks t (f' :: k)) (e ++ tr) ((f', D) :: P).
Proof.
  intros I R E HR HP Fi W G Ad Bo De Bt. open I. destruct (nodup_parts _ _ i_nodup0) as (N1 & N2 & N3). cbn in N2, N3. destruct (nodup_parts _ _ N2) as (N4 & N5 & N6).
  inversion i_items0 as [|p l Fp Fl]; subst. cbn [fst snd map] in *.
  constructor; cbn [map fst snd]; rewrite ?W; auto.
  - rewrite HR. cbn. apply perm_skip. auto.
  - constructor; auto. rewrite Forall_forall in *. intros p Ip. eapply fitems_tr; [| |exact (Fl p Ip)]; [intros x _; reflexivity|].
    intros x Ix X. destruct (in_dec Nat.eq_dec x D) as [Id|Nd].
    + exfalso. apply (N6 x Id). apply in_concat. exists (snd p). split; auto. apply in_map. auto.
    + revert X. clear - De Nd. intros X. destruct X as (u & d & kk & X). 
      assert (Dec : {destroyed x tr} + {~ destroyed x tr}).
      { unfold destroyed. clear. induction tr as [|ev tr IH]; [right; intros (? & ? & ? & []) |]. destruct IH as [IH|IH].
        - left. destruct IH as (u & d & kk & I). exists u, d, kk. cbn. auto.
        - destruct ev; try (right; intros (u & d & kk & [X|X]); [discriminate|apply IH; eauto]). destruct (Nat.eq_dec i x) as [->|N].
          + left. exists t, data, k. cbn. auto.
          + right. intros (u & d & kk & [X|X]); [congruence|apply IH; eauto]. }
      destruct Dec as [Y|Y]; auto. exfalso. apply Nd. apply De; auto. exists u, d, kk. auto.
  - intros a Ia. destruct (i_alive0 a Ia) as (A1 & A2). split; auto. intros X. apply (N3 a Ia). apply in_app_iff. left. apply De; auto.
  - intros a it N. rewrite Ad. auto.
  - intros a (d & kk & A). rewrite Ad in A. apply i_lt0. exists d, kk. auto.
  - intros u. rewrite nth_upd by (eapply nth_error_lt; eauto). specialize (i_batch0 u). destruct (Nat.eqb_spec u t) as [->|Nu].
    + rewrite (nth_of _ _ _ [] E) in i_batch0. eapply Bt; eauto.
    + rewrite Bo; auto.
Qed.

(* line 169 *)
Lemma INV_take h q ks tr P t w k a : INV h (Some q) ks tr P -> nth_error ks t = Some (FLoop w :: k) -> p_first q = Some a ->
  exists P', INV h (Some (set_ends q None None)) (upd ks t (FBatch a (Some a) w :: k)) (EBatch t :: tr) P'.
Proof.
  intros I E Ef. destruct (INV_focus _ _ _ _ _ _ _ _ I E) as (D & P' & R & I' & HR & HP). clear I. exists ((FBatch a (Some a) w, waiting tr) :: P'). open I'.
  inversion i_items0 as [|p l Fp Fl]; subst. cbn [fst snd map] in *. cbn in Fp. subst D. cbn [app concat map snd] in *.
  destruct i_pool0 as (Ls & La). rewrite Ef in Ls.
  assert (Nd : forall x, destroyed x (EBatch t :: tr) -> destroyed x tr). { intros x X. apply destroyed_cons in X. destruct X as [(? & ? & ? & X)|X]; [discriminate|auto]. }
  constructor; cbn [map fst snd waiting app concat set_ends p_first p_last lseg lasto]; auto.
  - rewrite HR. cbn. apply perm_skip. auto.
  - constructor; cbn [fst snd].
    + exists [], (waiting tr). split; auto. split; auto. split; auto. intros x Ix X. destruct (i_alive0 x Ix) as (_ & Y). auto.
    + rewrite Forall_forall in *. intros p Ip. eapply fitems_tr; [| |exact (Fl p Ip)]; [intros x _; reflexivity|auto].
  - intros x [].
  - intros x it N. cbn. right. auto.
  - intros x (d & kk & [X|X]); [discriminate|]. apply i_lt0. exists d, kk. auto.
  - split; auto. exact Logic.I.
  - intros u. rewrite nth_upd by (eapply nth_error_lt; eauto). specialize (i_batch0 u). cbn [batches]. rewrite (Nat.eqb_sym t u). destruct (Nat.eqb_spec u t) as [->|Nu]; auto.
    rewrite (nth_of _ _ _ [] E) in i_batch0. cbn [filter isb] in *. constructor; auto.
Qed.

(* line 171 *)
Lemma INV_destroy h oq ks tr P t items a w k : INV h oq ks tr P -> nth_error ks t = Some (FBatch items (Some a) w :: k) ->
  exists it, nth_error h a = Some (Some it) /\ forall f, f = FCb items a w \/ f = FSelf items a w ->
    exists P', INV h oq (upd ks t (f :: k)) (EDestroy t a (it_data it) (it_kind it) :: tr) P'.
Proof.
  intros I E. destruct (INV_focus _ _ _ _ _ _ _ _ I E) as (D & P' & R & I' & HR & HP).
  pose proof (i_items _ _ _ _ _ I') as Fi. inversion Fi as [|p l Fp Fl]; subst. cbn [fst snd] in Fp. clear Fi Fl.
  destruct Fp as (D1 & D2 & -> & Ls & Lc & Nd). destruct D2 as [|x D2]; [discriminate|]. pose proof Lc as Lc'. destruct Lc as (X & it & Nt & Lc). injection X as <-.
  exists it. split; auto. intros f Hf. exists ((f, D1 ++ a :: D2) :: P'). pose proof (i_nodup _ _ _ _ _ I') as Nn. destruct (nodup_parts _ _ Nn) as (_ & N2 & _). cbn in N2.
  destruct (nodup_parts _ _ N2) as (N4 & _ & _). destruct (nodup_parts _ _ N4) as (_ & N5 & _). inversion N5 as [|? ? Na _]; subst.
  pose proof (i_batch _ _ _ _ _ I' t) as Bt. rewrite (nth_of _ _ _ [] E) in Bt. cbn [filter isb] in Bt. inversion Bt as [|? b ? o Mb Mo Eq1 Eq2]; subst. cbn in Mb.
  assert (b = a :: D2) as -> by (eapply lseg_det; eauto).
  apply (INV_swap h oq ks tr P' t (FBatch items (Some a) w) k f (D1 ++ a :: D2) [EDestroy t a (it_data it) (it_kind it)] I' R); auto; cbn [app].
  - assert (G : exists D1' D2', D1 ++ a :: D2 = D1' ++ a :: D2' /\ lseg h (Some items) (D1 ++ a :: D2) /\ lseg h (Some a) (a :: D2') /\
      forall x, In x D2' -> ~ destroyed x (EDestroy t a (it_data it) (it_kind it) :: tr)).
    { exists D1, D2. split; auto. split; auto. split; auto. intros x Ix X. apply destroyed_cons in X. destruct X as [(? & ? & ? & X)|X]; [|apply (Nd x); cbn; auto].
      injection X as _ <- _ _. contradiction. }
    destruct Hf; subst f; exact G.
  - cbn. split; [|exact (i_good _ _ _ _ _ I')]. split; [eauto|]. split; [exact (i_entry _ _ _ _ _ I' _ _ Nt)|]. apply Nd. cbn. auto.
  - intros i d kk. cbn. split; auto. intros [X|X]; [discriminate|auto].
  - intros u Nu. cbn [batches]. destruct (Nat.eqb_spec t u); [congruence|auto].
  - intros x X Y. apply destroyed_cons in X. destruct X as [(? & ? & ? & X)|X]; [|contradiction]. injection X as _ <- _ _. apply in_app_iff. cbn. auto.
  - intros o' _ _. cbn [batches]. rewrite Nat.eqb_refl, <- Eq2. rewrite filter_top. assert (isb f = true) as -> by (destruct Hf; subst f; reflexivity). constructor; auto.
    destruct Hf; subst f; exact Lc'.
Qed.

(* line 172 *)
Lemma INV_next h oq ks tr P t items a w k f : INV h oq ks tr P -> nth_error ks t = Some (f :: k) -> f = FCb items a w \/ f = FSelf items a w ->
  exists it, nth_error h a = Some (Some it) /\ exists P', INV h oq (upd ks t (FBatch items (it_next it) w :: k)) tr P'.
Proof.
  intros I E Hf. destruct (INV_focus _ _ _ _ _ _ _ _ I E) as (D & P' & R & I' & HR & HP).
  pose proof (i_items _ _ _ _ _ I') as Fi. inversion Fi as [|p l Fp Fl]; subst. cbn [fst snd] in Fp. clear Fi Fl.
  assert (Fp' : fitems h tr (FCb items a w) D) by (destruct Hf; subst f; exact Fp). clear Fp. destruct Fp' as (D1 & D2 & -> & Ls & Lc & Nd). pose proof Lc as (_ & it & Nt & Ln).
  exists it. split; auto. exists ((FBatch items (it_next it) w, D1 ++ a :: D2) :: P').
  pose proof (i_batch _ _ _ _ _ I' t) as Bt. rewrite (nth_of _ _ _ [] E) in Bt. rewrite filter_top in Bt. assert (Fb : isb f = true) by (destruct Hf; subst f; reflexivity).
  rewrite Fb in Bt. inversion Bt as [|? b ? o Mb Mo Eq1 Eq2]; subst.
  assert (Mb' : lseg h (Some a) (a :: b)) by (destruct Hf; subst f; exact Mb). destruct Mb' as (_ & it' & Nt' & Lb). rewrite Nt in Nt'. injection Nt' as <-.
  apply (INV_swap h oq ks tr P' t f k (FBatch items (it_next it) w) (D1 ++ a :: D2) [] I' R); auto; cbn [app]; try reflexivity.
  - exists (D1 ++ [a]), D2. rewrite <- app_assoc. repeat split; auto.
  - exact (i_good _ _ _ _ _ I').
  - intros x X Y. contradiction.
  - intros o' _ _. rewrite filter_top. cbn [isb]. rewrite <- Eq2. constructor; auto.
Qed.

(* line 174 *)
Lemma INV_free h oq ks tr P t items w k : INV h oq ks tr P -> nth_error ks t = Some (FBatch items None w :: k) ->
  exists h', free_chain (length h) h (Some items) = Ok h' /\ exists P', INV h' oq (upd ks t (FLoop w :: k)) (EBatchEnd t :: tr) P'.
Proof.
  intros I E. destruct (INV_focus _ _ _ _ _ _ _ _ I E) as (D & P' & R & I' & HR & HP). clear I. open I'.
  inversion i_items0 as [|p l Fp Fl]; subst. cbn [fst snd] in *. destruct Fp as (D1 & D2 & -> & Ls & Lc & Nd). destruct D2; [|destruct Lc; discriminate]. rewrite app_nil_r in *.
  cbn [map snd concat] in *. destruct (nodup_parts _ _ i_nodup0) as (N1 & N2 & N3). destruct (nodup_parts _ _ N2) as (N4 & N5 & N6).
  destruct (chain_ok D1 (length h) h (Some items)) as (h' & Ec & Ln & Ho & Hi); auto.
  { apply nodup_bound; auto. intros x Ix. exact (alive_lt h x (lseg_alive h D1 _ Ls x Ix)). }
  exists h'. split; auto. exists ((FLoop w, []) :: P').
  assert (Sw : same h h' (waiting tr)). { intros x Ix. apply Ho. intros X. apply (N3 x Ix). apply in_app_iff. auto. }
  assert (Sp : same h h' (concat (map snd P'))). { intros x Ix. apply Ho. intros X. apply (N6 x X). auto. }
  assert (Nd' : forall x, destroyed x (EBatchEnd t :: tr) -> destroyed x tr). { intros x X. apply destroyed_cons in X. destruct X as [(? & ? & ? & X)|X]; [discriminate|auto]. }
  assert (Bk : forall u, Forall2 (bmatch h') (filter isb (nth u (upd ks t k) [])) (batches u (EBatchEnd t :: tr))).
  { assert (HPk : Permutation (map fst P') (concat (upd ks t k))) by (rewrite HR; auto).
    intros u. refine (batch_same h h' tr P' _ HPk Fl Sp u _ _).
    rewrite nth_upd by (eapply nth_error_lt; eauto). cbn [batches]. rewrite (Nat.eqb_sym t u). specialize (i_batch0 u). destruct (Nat.eqb_spec u t) as [->|Nu]; auto.
    rewrite (nth_of _ _ _ [] E) in i_batch0. cbn in i_batch0. inversion i_batch0; subst. auto. }
  constructor; cbn [map fst snd waiting app concat]; auto.
  - destruct oq as [q|]; auto. destruct i_pool0 as (A & B). split; auto. eapply lseg_same; eauto.
  - rewrite HR. cbn. apply perm_skip. auto.
  - constructor; [reflexivity|]. rewrite Forall_forall in *. intros p Ip. eapply fitems_tr; [| |exact (Fl p Ip)]; [|auto].
    eapply same_incl; [|exact Sp]. intros x Ix. apply in_concat. exists (snd p). split; auto. apply in_map. auto.
  - apply nodup_join; auto. intros x Ix X. apply (N3 x Ix). apply in_app_iff. auto.
  - intros a Ia. destruct (i_alive0 a Ia) as (A1 & A2). split; [exact (same_alive _ _ _ _ Sw Ia A1)|]. auto.
  - intros a it N. cbn. right. apply i_entry0. destruct (in_dec Nat.eq_dec a D1) as [Id|Id]; [rewrite Hi in N by auto; discriminate|]. rewrite <- Ho; auto.
  - intros a (d & kk & [X|X]); [discriminate|]. rewrite Ln. apply i_lt0. exists d, kk. auto.
  - split; auto. specialize (i_batch0 t). rewrite (nth_of _ _ _ [] E) in i_batch0. cbn in i_batch0. inversion i_batch0 as [|? b ? o Mb Mo Eq1 Eq2]; subst. cbn in Mb.
    destruct b; [|destruct Mb; discriminate]. cbn. rewrite <- Eq2. eauto.
  - intros u. specialize (Bk u). rewrite nth_upd in Bk |- * by (eapply nth_error_lt; eauto). destruct (Nat.eqb u t); auto.
  - intros a (it & N). destruct (in_dec Nat.eq_dec a D1) as [Id|Id]; [rewrite Hi in N by auto; discriminate|]. rewrite Ho in N by auto.
    assert (X : In a (waiting tr ++ D1 ++ concat (map snd P'))) by (apply i_live0; exists it; auto). rewrite !in_app_iff in *. tauto.
Qed.

(* lines 226-242 *)
Lemma INV_add h q ks tr P data kd : INV h (Some q) ks tr P ->
  let a := length h in let h1 := h ++ [Some (Item None data kd)] in let tr' := EAdd a data kd :: tr in
  (p_last q = None /\ exists P', forall r i, INV h1 (Some (set_refs (set_idle (set_ends q (Some a) (Some a)) i) r)) ks tr' P') \/
  (exists l it, p_last q = Some l /\ nth_error h1 l = Some (Some it) /\
     exists P', forall r i, INV (upd h1 l (Some (set_next it (Some a)))) (Some (set_refs (set_idle (set_ends q (p_first q) (Some a)) i) r)) ks tr' P').
Proof.
  intros I a h1 tr'. assert (Iv := I). open I. destruct (nodup_parts _ _ i_nodup0) as (N1 & N2 & N3).
  assert (Nal : ~ In a (waiting tr ++ concat (map snd P))).
  { intros X. apply in_app_iff in X. assert (al : alive h a).
    { destruct X as [X|X]; [exact (proj1 (i_alive0 a X))|]. apply in_concat in X. destruct X as (D & X1 & X2). apply in_map_iff in X1. destruct X1 as (p & <- & X1).
      rewrite Forall_forall in i_items0. eapply fitems_alive; [exact (i_items0 p X1)|auto]. }
    apply alive_lt in al. unfold a in al. lia. }
  assert (Nad : ~ added a tr). { intros X. apply i_lt0 in X. unfold a in X. lia. }
  assert (Na : nth_error h1 a = Some (Some (Item None data kd))). { unfold h1, a. rewrite nth_error_app2, Nat.sub_diag by lia. reflexivity. }
  assert (Nde : forall x, destroyed x tr' -> destroyed x tr). { intros x X. apply destroyed_cons in X. destruct X as [(? & ? & ? & X)|X]; [discriminate|auto]. }
  assert (S1 : same h h1 (waiting tr)). { apply same_app. intros x Ix. exact (proj1 (i_alive0 x Ix)). }
  assert (S2 : same h h1 (concat (map snd P))).
  { apply same_app. intros x X. apply in_concat in X. destruct X as (D & X1 & X2). apply in_map_iff in X1. destruct X1 as (p & <- & X1).
    rewrite Forall_forall in i_items0. eapply fitems_alive; [exact (i_items0 p X1)|auto]. }
  assert (Old : forall x y, nth_error h1 x = Some y -> x = a /\ y = Some (Item None data kd) \/ nth_error h x = Some y).
  { intros x y N. destruct (Nat.lt_ge_cases x (length h)) as [Lt|Ge]; [right; unfold h1 in N; rewrite nth_error_app1 in N by auto; auto|].
    left. assert (Lx : (x < length h1)%nat) by (eapply nth_error_lt; eauto). unfold h1 in Lx. rewrite app_length in Lx. cbn in Lx. assert (x = a) as -> by (unfold a; lia). split; auto. congruence. }
  (* all but the list of the pool *)
  assert (Gen : forall h' q', length h' = length h1 -> same h1 h' (concat (map snd P)) -> (forall x it, nth_error h' x = Some (Some it) -> exists it', nth_error h1 x = Some (Some it') /\ it_data it' = it_data it /\ it_kind it' = it_kind it) ->
    (forall x, In x (waiting tr ++ [a]) -> alive h' x) -> lseg h' (p_first q') (waiting tr ++ [a]) -> p_last q' = lasto (waiting tr ++ [a]) -> INV h' (Some q') ks tr' P).
  { intros h' q' Ln Sc Ent Al Ls La. pose proof (same_trans _ _ _ _ S2 Sc) as S3. constructor; cbn [waiting tr']; auto.
    - rewrite Forall_forall in *. intros p Ip. eapply fitems_tr; [| |exact (i_items0 p Ip)]; [|auto].
      eapply same_incl; [|exact S3]. intros x Ix. apply in_concat. exists (snd p). split; auto. apply in_map. auto.
    - apply (Permutation_NoDup (l := a :: waiting tr ++ concat (map snd P))); [|constructor; auto]. rewrite <- app_assoc. apply Permutation_middle.
    - intros x Ix. split; auto. intros X. apply Nde in X. apply in_app_iff in Ix. destruct Ix as [Ix|[<-|[]]].
      + destruct (i_alive0 x Ix). auto.
      + apply Nad. apply destroyed_added; auto.
    - intros x it N. destruct (Ent x it N) as (it' & N' & E1 & E2). destruct (Old _ _ N') as [(-> & Y)|Y].
      + injection Y as ->. cbn in E1, E2. rewrite <- E1, <- E2. left. reflexivity.
      + right. rewrite <- E1, <- E2. auto.
    - intros x (d & kk & [X|X]); rewrite Ln; unfold h1; rewrite app_length; cbn.
      + injection X as <- _ _. unfold a. lia.
      + assert (x < length h)%nat by (apply i_lt0; exists d, kk; auto). lia.
    - split; auto.
    - intros u. apply (batch_same h h' tr P); auto. apply i_batch0.
    - intros x (it & N). destruct (Ent x it N) as (it' & N' & _). destruct (Old _ _ N') as [(-> & Y)|Y]; [rewrite !in_app_iff; cbn; auto|].
      assert (X : In x (waiting tr ++ concat (map snd P))) by (apply i_live0; exists it'; auto). rewrite !in_app_iff in *. tauto. }
  destruct i_pool0 as (Ls & La). destruct (p_last q) as [l|] eqn:El.
  - right. destruct (lasto_in _ _ (eq_sym La)) as (w' & Ew).
    assert (Iw : In l (waiting tr)) by (rewrite Ew; apply in_app_iff; cbn; auto). destruct (i_alive0 l Iw) as ((it & Nl) & _).
    assert (Nl1 : nth_error h1 l = Some (Some it)) by (rewrite S1; auto).
    exists l, it. split; auto. split; auto. exists P. intros r i.
    assert (Nla : l <> a) by (intros ->; apply Nal, in_app_iff; auto).
    apply Gen; cbn [set_refs set_idle set_ends p_first p_last].
    + apply upd_length.
    + apply same_upd. apply N3. auto.
    + intros x ix N. destruct (Nat.eq_dec x l) as [->|Nx].
      * rewrite (upd_here _ _ _ _ Nl1) in N. injection N as <-. exists it. auto.
      * rewrite nth_error_upd_ne in N by auto. exists ix. auto.
    + intros x Ix. destruct (Nat.eq_dec x l) as [->|Nx]; [eexists; eapply upd_here; eauto|]. unfold alive. rewrite nth_error_upd_ne by auto. apply in_app_iff in Ix. destruct Ix as [Ix|[<-|[]]].
      * rewrite S1 by auto. exact (proj1 (i_alive0 x Ix)).
      * eauto.
    + rewrite Ew in *. eapply lseg_snoc; [eapply lseg_same; [exact S1|exact Ls]|auto| |eapply upd_here; eauto|reflexivity|].
      * apply same_upd. destruct (nodup_parts _ _ N1) as (_ & _ & X). intros Y. apply (X l Y). cbn. auto.
      * exists (Item None data kd). split; auto. rewrite nth_error_upd_ne by auto. auto.
    + rewrite lasto_app. reflexivity.
  - left. split; auto. exists P. intros r i.
    assert (Ew : waiting tr = []). { destruct (waiting tr) as [|x l] eqn:E; auto. exfalso. clear - La. revert x La. induction l as [|y l IH]; cbn; intros x La; [discriminate|]. apply (IH y). exact La. }
    apply Gen; rewrite ?Ew in *; cbn [set_refs set_idle set_ends p_first p_last app lasto].
    + reflexivity.
    + intros x _. reflexivity.
    + intros x it N. exists it. auto.
    + intros x [<-|[]]. exists (Item None data kd). auto.
    + cbn. split; auto. exists (Item None data kd). auto.
    + reflexivity.
Qed.
