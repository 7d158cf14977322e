(* Which thread a pool belongs to, and which threads destroy what is in it *)
From Verif Require Import Base DpoolModel DpoolSpec DpoolProofs.

(* ---------------- events in their order ---------------- *)
Definition ok_event (e : event) (pre : list event) : Prop :=
  match e with
  | EDestroy t p _ _ => forall u, In (ENew u p) pre -> u = t \/ In (EExit u) pre
  | EDefault t p | EAdd t p _ _ => In (ENew t p) pre
  | ENew t p => (forall u, ~ In (ENew u p) pre) /\ (~ In (EExit t) pre -> forall r, ~ In (ENew t r) pre)
  | EGone p => forall u, In (ENew u p) pre -> In (EExit u) pre
  | _ => True
  end.
Fixpoint good (tr : list event) : Prop := match tr with [] => True | e :: pre => ok_event e pre /\ good pre end.
Lemma good_at post e pre : good (post ++ e :: pre) -> ok_event e pre /\ good pre.
Proof. induction post as [|x post IH]; cbn; tauto. Qed.
Lemma good_new tr : good tr -> forall t u p, In (ENew t p) tr -> In (ENew u p) tr -> t = u.
Proof.
  induction tr as [|e tr IH]; cbn; [tauto|]. intros (O & G) t u p [->|A] [B|B]; eauto.
  - congruence.
  - destruct O as (O & _). destruct (O _ B).
  - subst e. destruct O as (O & _). destruct (O _ A).
Qed.
Lemma good_one tr : good tr -> forall t p r, In (ENew t p) tr -> In (ENew t r) tr -> ~ In (EExit t) tr -> p = r.
Proof.
  induction tr as [|e tr IH]; cbn; [tauto|]. intros (O & G) t p r [->|A] [B|B] N; eauto.
  - congruence.
  - destruct O as (_ & O). destruct (O ltac:(tauto) _ B).
  - subst e. destruct O as (_ & O). destruct (O ltac:(tauto) _ A).
Qed.

Definition view (s : state) : list (option nat) := map (option_map p_thread) (s_pools s).
Definition fj (f : frame) : option (nat * caller) := match f with FOther _ _ _ => None | _ => fcaller f end.
Definition jf (t : nat) (tr : list event) (f : frame) : Prop :=
  forall p w, fj f = Some (p, w) -> forall u, In (ENew u p) tr -> In (EExit u) tr \/ (w <> WFinal /\ u = t).

Record J (V : list (option nat)) (T : list thread) (tr : list event) : Prop := mkJ {
  j_good : good tr;
  j_new : forall t p, In (ENew t p) tr -> (p < length V)%nat /\ exists th, nth_error T t = Some th /\ t_life th <> Unborn;
  j_slot : forall t th p, nth_error T t = Some th -> t_slot th = Some p -> In (ENew t p) tr;
  j_exit : forall t th, nth_error T t = Some th -> (In (EExit t) tr <-> (t_life th = Exiting \/ t_life th = Dead));
  j_keep : forall t th p, In (ENew t p) tr -> nth_error T t = Some th -> t_life th = Alive -> t_slot th = Some p;
  j_self : forall t th p a, nth_error V p = Some (Some a) -> In (ENew t p) tr -> nth_error T t = Some th -> a = t_self th;
  j_dist : forall t u th thu, nth_error T t = Some th -> nth_error T u = Some thu -> exists_thread th = true -> exists_thread thu = true -> t_self th = t_self thu -> t = u;
  j_frame : forall t th f, nth_error T t = Some th -> In f (t_stack th) -> jf t tr f;
  j_ex : forall t th n, nth_error T t = Some th -> In (FExit n) (t_stack th) -> In (EExit t) tr }.

(* events which do not matter here *)
Definition dull (e : event) : bool :=
  match e with EDestroy _ _ _ _ | EDefault _ _ | EAdd _ _ _ _ | ENew _ _ | EGone _ | EExit _ => false | _ => true end.
Definition marks (e : event) : bool := match e with ENew _ _ | EExit _ => false | _ => true end.
Lemma J_mark V T tr e : J V T tr -> marks e = true -> ok_event e tr -> J V T (e :: tr).
Proof.
  intros I M O. assert (A : forall t p, In (ENew t p) (e :: tr) <-> In (ENew t p) tr) by (intros t p; cbn; split; [intros [->|]; [discriminate|auto]|auto]).
  assert (B : forall t, In (EExit t) (e :: tr) <-> In (EExit t) tr) by (intros t; cbn; split; [intros [->|]; [discriminate|auto]|auto]).
  constructor.
  - split; auto. apply (j_good _ _ _ I).
  - intros t p H. apply A in H. apply (j_new _ _ _ I); auto.
  - intros t th p E S. apply A. eapply j_slot; eauto.
  - intros t th E. rewrite B. apply (j_exit _ _ _ I); auto.
  - intros t th p H. apply A in H. apply (j_keep _ _ _ I); auto.
  - intros t th p a H1 H2. apply A in H2. eapply j_self; eauto.
  - apply (j_dist _ _ _ I).
  - intros t th f E Fi p w Fc u N. rewrite B. apply A in N. eapply j_frame; eauto.
  - intros t th n E Fi. apply B. eapply j_ex; eauto.
Qed.
Lemma J_dull V T tr e : J V T tr -> dull e = true -> J V T (e :: tr).
Proof. intros I D. apply J_mark; auto; destruct e; try discriminate; auto; exact Logic.I. Qed.
Lemma J_gone V T tr p : J V T tr -> J (upd V p None) T tr.
Proof.
  intros I. constructor; try apply I.
  - intros t r H. rewrite upd_length. apply (j_new _ _ _ I); auto.
  - intros t th r a H. destruct (Nat.eq_dec p r) as [<-|Ne].
    + destruct (lt_dec p (length V)); [rewrite nth_error_upd_eq in H by auto; discriminate|]. rewrite (proj2 (nth_error_None _ _)) in H by (rewrite upd_length; lia). discriminate.
    + rewrite upd_other in H by auto. eapply j_self; eauto.
Qed.
Lemma J_thread V T tr t th th' : J V T tr -> nth_error T t = Some th -> t_self th' = t_self th -> t_life th' = t_life th \/ (t_life th = Exiting /\ t_life th' = Dead) ->
  (t_slot th' = t_slot th \/ (t_slot th' = None /\ t_life th <> Alive)) -> (forall f, In f (t_stack th') -> In f (t_stack th) \/ (jf t tr f /\ forall n, f = FExit n -> In (EExit t) tr)) -> J V (upd T t th') tr.
Proof.
  intros I E Se Li Sl Fr. pose proof (upd_same _ _ _ E th') as Eq.
  assert (C : forall u thu, nth_error (upd T t th') u = Some thu -> (u = t /\ thu = th') \/ nth_error T u = Some thu). { intros u thu Eu. destruct (Nat.eq_dec t u) as [<-|Ne]; [left; split; congruence|rewrite upd_other in Eu by auto; auto]. }
  assert (EX : exists_thread th' = true -> exists_thread th = true) by (unfold exists_thread; destruct Li as [->|(-> & ->)]; auto).
  constructor.
  - apply (j_good _ _ _ I).
  - intros u p H. destruct (j_new _ _ _ I u p H) as (L & thu & Eu & Lu). split; auto. destruct (Nat.eq_dec t u) as [<-|Ne]; [exists th'; split; auto; destruct Li as [->|(_ & ->)]; [congruence|discriminate]|exists thu; rewrite upd_other by auto; auto].
  - intros u thu p Eu S. destruct (C u thu Eu) as [(-> & ->)|Eu0]; [|eapply j_slot; eauto]. destruct Sl as [Sl|(Sl & _)]; [|congruence]. eapply j_slot; eauto. congruence.
  - intros u thu Eu. destruct (C u thu Eu) as [(-> & ->)|Eu0]; [|eapply j_exit; eauto]. rewrite (j_exit _ _ _ I t th E). destruct Li as [->|(-> & ->)]; tauto.
  - intros u thu p N Eu A. destruct (C u thu Eu) as [(-> & ->)|Eu0]; [|eapply j_keep; eauto]. destruct Li as [Li|(_ & Li)]; [|congruence]. rewrite Li in A. destruct Sl as [->|(_ & Sl)]; [eapply j_keep; eauto|contradiction].
  - intros u thu p a H N Eu. destruct (C u thu Eu) as [(-> & ->)|Eu0]; [rewrite Se|]; eapply j_self; eauto.
  - intros u v thu thv Eu Ev Xu Xv S. destruct (C u thu Eu) as [(-> & ->)|Eu0], (C v thv Ev) as [(-> & ->)|Ev0]; auto; eapply (j_dist _ _ _ I); eauto; congruence.
  - intros u thu f Eu Fi. destruct (C u thu Eu) as [(-> & ->)|Eu0]; [|eapply j_frame; eauto]. destruct (Fr f Fi) as [Fi0|(Fi0 & _)]; auto. eapply j_frame; eauto.
  - intros u thu n Eu Fi. destruct (C u thu Eu) as [(-> & ->)|Eu0]; [|eapply j_ex; eauto]. destruct (Fr _ Fi) as [Fi0|(_ & Fi0)]; [eapply j_ex; eauto|eapply Fi0; eauto].
Qed.
Lemma J_start V T tr t th : J V T tr -> nth_error T t = Some th -> t_life th = Unborn -> existsb (fun x => exists_thread x && Nat.eqb (t_self x) (t_self th)) T = false -> J V (upd T t (with_life th Alive)) tr.
Proof.
  intros I E L X. set (th' := with_life th Alive). pose proof (upd_same _ _ _ E th') as Eq.
  assert (C : forall u thu, nth_error (upd T t th') u = Some thu -> (u = t /\ thu = th') \/ nth_error T u = Some thu). { intros u thu Eu. destruct (Nat.eq_dec t u) as [<-|Ne]; [left; split; congruence|rewrite upd_other in Eu by auto; auto]. }
  assert (Nn : forall p, ~ In (ENew t p) tr). { intros p H. destruct (j_new _ _ _ I t p H) as (_ & th1 & E1 & L1). assert (th1 = th) by congruence. subst. contradiction. }
  assert (D : forall u thu, nth_error T u = Some thu -> exists_thread thu = true -> t_self thu <> t_self th).
  { intros u thu Eu Xu Se. assert (Y : existsb (fun x => exists_thread x && Nat.eqb (t_self x) (t_self th)) T = true); [|congruence]. apply existsb_exists. exists thu. split; [eapply nth_error_In; eauto|]. rewrite Xu, Se, Nat.eqb_refl. auto. }
  constructor.
  - apply (j_good _ _ _ I).
  - intros u p H. destruct (j_new _ _ _ I u p H) as (Lt & thu & Eu & Lu). split; auto. destruct (Nat.eq_dec t u) as [<-|Ne]; [exists th'; split; auto; discriminate|exists thu; rewrite upd_other by auto; auto].
  - intros u thu p Eu S. destruct (C u thu Eu) as [(-> & ->)|Eu0]; [|eapply j_slot; eauto]. eapply j_slot; eauto.
  - intros u thu Eu. destruct (C u thu Eu) as [(-> & ->)|Eu0]; [|eapply j_exit; eauto]. rewrite (j_exit _ _ _ I t th E). cbn. rewrite L. split; intros [|]; discriminate.
  - intros u thu p N Eu A. destruct (C u thu Eu) as [(-> & ->)|Eu0]; [|eapply j_keep; eauto]. destruct (Nn _ N).
  - intros u thu p a H N Eu. destruct (C u thu Eu) as [(-> & ->)|Eu0]; [|eapply j_self; eauto]. destruct (Nn _ N).
  - intros u v thu thv Eu Ev Xu Xv S. destruct (C u thu Eu) as [(-> & ->)|Eu0], (C v thv Ev) as [(-> & ->)|Ev0]; auto; [| |eapply (j_dist _ _ _ I); eauto].
    + destruct (D _ _ Ev0 Xv). auto.
    + destruct (D _ _ Eu0 Xu). auto.
  - intros u thu f Eu Fi. destruct (C u thu Eu) as [(-> & ->)|Eu0]; [|eapply j_frame; eauto]. eapply (j_frame _ _ _ I); eauto.
  - intros u thu n Eu Fi. destruct (C u thu Eu) as [(-> & ->)|Eu0]; [|eapply j_ex; eauto]. eapply (j_ex _ _ _ I t th); eauto.
Qed.
Lemma J_exit V T tr t th c k : J V T tr -> nth_error T t = Some th -> t_life th = Alive -> t_stack th = [] -> fj k = None -> J V (upd T t (with_stack (with_ctx (with_life th Exiting) c) [k])) (EExit t :: tr).
Proof.
  intros I E L K Fk. set (th' := with_stack _ _). pose proof (upd_same _ _ _ E th') as Eq.
  assert (C : forall u thu, nth_error (upd T t th') u = Some thu -> (u = t /\ thu = th') \/ (u <> t /\ nth_error T u = Some thu)). { intros u thu Eu. destruct (Nat.eq_dec t u) as [<-|Ne]; [left; split; congruence|rewrite upd_other in Eu by auto; auto]. }
  assert (A : forall u p, In (ENew u p) (EExit t :: tr) -> In (ENew u p) tr) by (intros u p [|]; [discriminate|auto]).
  assert (EX : exists_thread th = true) by (unfold exists_thread; rewrite L; auto).
  constructor.
  - split; [exact Logic.I|]. apply (j_good _ _ _ I).
  - intros u p H. apply A in H. destruct (j_new _ _ _ I u p H) as (Lt & thu & Eu & Lu). split; auto. destruct (Nat.eq_dec t u) as [<-|Ne]; [exists th'; split; auto; discriminate|exists thu; rewrite upd_other by auto; auto].
  - intros u thu p Eu S. right. destruct (C u thu Eu) as [(-> & ->)|(_ & Eu0)]; eapply j_slot; eauto.
  - intros u thu Eu. destruct (C u thu Eu) as [(-> & ->)|(Ne & Eu0)]; [cbn; tauto|]. rewrite <- (j_exit _ _ _ I u thu Eu0). cbn. split; [intros [X|]; [congruence|auto]|auto].
  - intros u thu p N Eu Al. apply A in N. destruct (C u thu Eu) as [(-> & ->)|(_ & Eu0)]; [discriminate|eapply j_keep; eauto].
  - intros u thu p a H N Eu. apply A in N. destruct (C u thu Eu) as [(-> & ->)|(_ & Eu0)]; [|eapply j_self; eauto]. change (t_self th') with (t_self th). eapply j_self; eauto.
  - intros u v thu thv Eu Ev Xu Xv S. destruct (C u thu Eu) as [(-> & ->)|(_ & Eu0)], (C v thv Ev) as [(-> & ->)|(_ & Ev0)]; auto; eapply (j_dist _ _ _ I); eauto.
  - intros u thu f Eu Fi p w Fc v N. apply A in N. destruct (C u thu Eu) as [(-> & ->)|(_ & Eu0)].
    + destruct Fi as [<-|[]]. congruence.
    + destruct (j_frame _ _ _ I _ _ _ Eu0 Fi p w Fc v N) as [X|X]; [left; cbn; auto|auto].
  - intros u thu n Eu Fi. destruct (C u thu Eu) as [(-> & ->)|(_ & Eu0)]; [cbn; auto|]. right. eapply j_ex; eauto.
Qed.
Lemma J_new V T tr t th : J V T tr -> nth_error T t = Some th -> t_slot th = None -> exists_thread th = true ->
  (forall u thu f p w, nth_error T u = Some thu -> In f (t_stack thu) -> fj f = Some (p, w) -> (p < length V)%nat) ->
  J (V ++ [Some (t_self th)]) (upd T t (with_slot th (Some (length V)))) (ENew t (length V) :: tr).
Proof.
  intros I E Sl EX Bd. set (th' := with_slot _ _). pose proof (upd_same _ _ _ E th') as Eq. assert (Lf : t_life th <> Unborn) by (intros X; unfold exists_thread in EX; rewrite X in EX; discriminate).
  assert (C : forall u thu, nth_error (upd T t th') u = Some thu -> (u = t /\ thu = th') \/ (u <> t /\ nth_error T u = Some thu)). { intros u thu Eu. destruct (Nat.eq_dec t u) as [<-|Ne]; [left; split; congruence|rewrite upd_other in Eu by auto; auto]. }
  assert (Fr : forall u, ~ In (ENew u (length V)) tr). { intros u H. destruct (j_new _ _ _ I _ _ H). lia. }
  assert (Nx : t_life th = Alive -> forall r, ~ In (ENew t r) tr). { intros A r H. rewrite (j_keep _ _ _ I _ _ _ H E A) in Sl. discriminate. }
  assert (B : forall u, In (EExit u) (ENew t (length V) :: tr) <-> In (EExit u) tr) by (intros u; cbn; split; [intros [|]; [discriminate|auto]|auto]).
  constructor.
  - cbn. split; [split; auto|apply (j_good _ _ _ I)]. intros X. apply Nx. rewrite (j_exit _ _ _ I t th E) in X. destruct (t_life th); auto; tauto.
  - intros u p [X|H]; rewrite app_length; cbn [length].
    + injection X as <- <-. split; [lia|]. exists th'. split; auto.
    + destruct (j_new _ _ _ I u p H) as (Lt & thu & Eu & Lu). split; [lia|]. destruct (Nat.eq_dec t u) as [<-|Ne]; [exists th'; split; auto|exists thu; rewrite upd_other by auto; auto].
  - intros u thu p Eu S. destruct (C u thu Eu) as [(-> & ->)|(_ & Eu0)]; [cbn in S; injection S as <-; cbn; auto|right; eapply j_slot; eauto].
  - intros u thu Eu. rewrite B. destruct (C u thu Eu) as [(-> & ->)|(Ne & Eu0)]; [exact (j_exit _ _ _ I t th E)|apply (j_exit _ _ _ I); auto].
  - intros u thu p [X|N] Eu Al.
    + injection X as <- <-. assert (thu = th') as -> by congruence. reflexivity.
    + destruct (C u thu Eu) as [(-> & ->)|(_ & Eu0)]; [destruct (Nx Al _ N)|eapply j_keep; eauto].
  - intros u thu p a H [X|N] Eu.
    + injection X as <- <-. assert (thu = th') as -> by congruence. rewrite nth_error_app2, Nat.sub_diag in H by lia. cbn in H. injection H as <-. reflexivity.
    + destruct (j_new _ _ _ I _ _ N) as (Lt & _). rewrite nth_error_app1 in H by auto. destruct (C u thu Eu) as [(-> & ->)|(_ & Eu0)]; [|eapply j_self; eauto]. change (t_self th') with (t_self th). eapply j_self; eauto.
  - intros u v thu thv Eu Ev Xu Xv S. destruct (C u thu Eu) as [(-> & ->)|(_ & Eu0)], (C v thv Ev) as [(-> & ->)|(_ & Ev0)]; auto; eapply (j_dist _ _ _ I); eauto.
  - intros u thu f Eu Fi p w Fc v [X|N].
    + injection X as <- <-. assert (X : (length V < length V)%nat) by (destruct (C u thu Eu) as [(-> & ->)|(_ & Eu0)]; eapply Bd; eauto). lia.
    + rewrite B. destruct (C u thu Eu) as [(-> & ->)|(_ & Eu0)]; eapply (j_frame _ _ _ I); eauto.
  - intros u thu n Eu Fi. right. destruct (C u thu Eu) as [(-> & ->)|(_ & Eu0)]; eapply (j_ex _ _ _ I); eauto.
Qed.

(* ---------------- items ---------------- *)
Definition cnt (i : nat) (l : list (nat * Z)) : Z := sumz (fun x => if Nat.eqb (fst x) i then 1 else 0) l.
Definition pw (i : nat) (o : option (list (nat * Z))) : Z := match o with Some l => cnt i l | None => 0 end.
Definition flist (f : frame) : list (nat * Z) := match f with FBatch _ l _ | FCb _ l _ => l | _ => [] end.
Definition done (f : frame) : option nat := match f with FRemove p _ WFinal | FRemoved p WFinal => Some p | _ => None end.
Definition inframes (i : nat) (T : list thread) : Z := sumz (fun th => sumz (fun f => cnt i (flist f)) (t_stack th)) T.
Definition items (s : state) : list (option (list (nat * Z))) := map (option_map p_items) (s_pools s).
Definition ok_item (e : event) (pre : list event) : Prop :=
  match e with
  | EAdd _ _ i _ => forall u r x, ~ In (EAdd u r i x) pre
  | EDestroy _ p i d => exists u, In (EAdd u p i d) pre
  | _ => True
  end.
Fixpoint goodi (tr : list event) : Prop := match tr with [] => True | e :: pre => ok_item e pre /\ goodi pre end.
Lemma goodi_at post e pre : goodi (post ++ e :: pre) -> ok_item e pre /\ goodi pre.
Proof. induction post as [|x post IH]; cbn; tauto. Qed.
Lemma goodi_add tr : goodi tr -> forall i t p d u r e, In (EAdd t p i d) tr -> In (EAdd u r i e) tr -> t = u /\ p = r /\ d = e.
Proof.
  induction tr as [|x tr IH]; cbn; [tauto|]. intros (O & G) i t p d u r e [->|A] [B|B]; eauto.
  - injection B as -> -> ->. auto.
  - destruct (O _ _ _ B).
  - subst x. destruct (O _ _ _ A).
Qed.
Lemma cnt_nonneg i l : 0 <= cnt i l.
Proof. apply sumz_nonneg. intros x. destruct (Nat.eqb _ _); lia. Qed.
Lemma cnt_in i d l : In (i, d) l -> 1 <= cnt i l.
Proof. intros H. eapply Z.le_trans; [|apply (sumz_in _ _ (i, d)); [intros x; destruct (Nat.eqb _ _); lia|exact H]]. cbn. rewrite Nat.eqb_refl. lia. Qed.
Lemma cnt_pos i l : 0 < cnt i l -> exists d, In (i, d) l.
Proof. intros H. apply sumz_pos in H; [|intros x; destruct (Nat.eqb _ _); lia]. destruct H as ((j & d) & A & B). cbn in B. destruct (Nat.eqb_spec j i); [subst; eauto|lia]. Qed.
Lemma pw_nonneg i o : 0 <= pw i o.
Proof. destruct o; cbn; [apply cnt_nonneg|lia]. Qed.
Lemma inframes_nonneg i T : 0 <= inframes i T.
Proof. apply sumz_nonneg. intros. apply sumz_nonneg. intros. apply cnt_nonneg. Qed.

Record K (P : list (option (list (nat * Z)))) (T : list thread) (n : nat) (tr : list event) : Prop := mkK {
  k_good : goodi tr;
  k_count : forall i, sumz (pw i) P + inframes i T + Z.of_nat (destructions i tr) = if Nat.ltb i n then 1 else 0;
  k_pool : forall p l i d, nth_error P p = Some (Some l) -> In (i, d) l -> exists t, In (EAdd t p i d) tr;
  k_frame : forall t th f p w i d, nth_error T t = Some th -> In f (t_stack th) -> fcaller f = Some (p, w) -> In (i, d) (flist f) -> exists u, In (EAdd u p i d) tr;
  k_lt : forall t p i d, In (EAdd t p i d) tr -> (i < n)%nat;
  k_wait : forall p, waiting p tr = match nth_error P p with Some (Some l) => map fst l | _ => [] end;
  k_done : forall t th f p, nth_error T t = Some th -> In f (t_stack th) -> done f = Some p -> nth_error P p = Some (Some []) }.

Definition kdull (e : event) : bool := match e with EAdd _ _ _ _ | EDestroy _ _ _ _ | EBatch _ _ => false | _ => true end.
Lemma K_dull P T n tr e : K P T n tr -> kdull e = true -> K P T n (e :: tr).
Proof.
  intros I D. assert (A : forall t p i d, In (EAdd t p i d) (e :: tr) <-> In (EAdd t p i d) tr) by (intros t p i d; cbn; split; [intros [->|]; [discriminate|auto]|auto]).
  constructor; try apply I.
  - split; [destruct e; try discriminate; exact Logic.I|apply (k_good _ _ _ _ I)].
  - intros i. rewrite <- (k_count _ _ _ _ I i). destruct e; try discriminate; reflexivity.
  - intros p l i d H1 H2. destruct (k_pool _ _ _ _ I p l i d H1 H2) as (t & H). exists t. apply A; auto.
  - intros t th f p w i d H1 H2 H3 H4. destruct (k_frame _ _ _ _ I t th f p w i d H1 H2 H3 H4) as (u & H). exists u. apply A; auto.
  - intros t p i d H. apply A in H. eapply k_lt; eauto.
  - intros p. rewrite <- (k_wait _ _ _ _ I p). destruct e; try discriminate; reflexivity.
Qed.
Lemma K_stack P T n tr t th th' : K P T n tr -> nth_error T t = Some th -> (forall i, sumz (fun f => cnt i (flist f)) (t_stack th') = sumz (fun f => cnt i (flist f)) (t_stack th)) ->
  (forall g, In g (t_stack th') -> In g (t_stack th) \/ (flist g = [] /\ forall p, done g = Some p -> nth_error P p = Some (Some [])) \/
     (done g = None /\ exists f, In f (t_stack th) /\ fcaller f = fcaller g /\ flist f = flist g)) -> K P (upd T t th') n tr.
Proof.
  intros I E S Fr. pose proof (upd_same _ _ _ E th') as Eq.
  assert (C : forall u thu, nth_error (upd T t th') u = Some thu -> (u = t /\ thu = th') \/ nth_error T u = Some thu). { intros u thu Eu. destruct (Nat.eq_dec t u) as [<-|Ne]; [left; split; congruence|rewrite upd_other in Eu by auto; auto]. }
  constructor; try apply I.
  - intros i. rewrite <- (k_count _ _ _ _ I i). unfold inframes. rewrite (sumz_upd _ _ _ _ th' E). rewrite S. lia.
  - intros u thu g p w i d Eu Gi Fc Li. destruct (C u thu Eu) as [(-> & ->)|Eu0]; [|eapply k_frame; eauto]. destruct (Fr g Gi) as [Gi0|[(L0 & _)|(_ & f & Fi & F1 & F2)]].
    + eapply k_frame; eauto.
    + rewrite L0 in Li. destruct Li.
    + apply (k_frame _ _ _ _ I t th f p w i d); auto; congruence.
  - intros u thu g p Eu Gi D. destruct (C u thu Eu) as [(-> & ->)|Eu0]; [|eapply (k_done _ _ _ _ I); eauto]. destruct (Fr g Gi) as [Gi0|[(_ & L0)|(X & _)]]; [eapply (k_done _ _ _ _ I t th); eauto|auto|congruence].
Qed.
Lemma K_swap P T n tr t th f k g : K P T n tr -> nth_error T t = Some th -> t_stack th = f :: k -> flist g = flist f -> fcaller g = fcaller f -> (forall p, done g = Some p -> nth_error P p = Some (Some []) /\ flist g = []) -> K P (upd T t (with_stack th (g :: k))) n tr.
Proof.
  intros I E St L F D. eapply K_stack; eauto; cbn [t_stack with_stack]; rewrite St.
  - intros i. cbn [sumz]. rewrite L. auto.
  - intros h [<-|H]; [|cbn; auto]. right. destruct (done g) as [p|] eqn:Dg.
    + left. destruct (D p eq_refl) as (D1 & D2). split; auto. intros r X. injection X as <-. auto.
    + right. split; auto. exists f. cbn. auto.
Qed.
Lemma K_pop P T n tr t th f k : K P T n tr -> nth_error T t = Some th -> t_stack th = f :: k -> flist f = [] -> K P (upd T t (with_stack th k)) n tr.
Proof. intros I E St L. eapply K_stack; eauto; cbn [t_stack with_stack]; rewrite St; cbn; [rewrite L; cbn; intros; lia|auto]. Qed.
Lemma K_push P T n tr t th g : K P T n tr -> nth_error T t = Some th -> flist g = [] -> done g = None -> K P (upd T t (with_stack th (g :: t_stack th))) n tr.
Proof. intros I E L D. eapply K_stack; eauto; cbn [t_stack with_stack sumz]; [rewrite L; cbn; intros; lia|]. intros h [<-|H]; auto. right. left. split; auto. congruence. Qed.
Lemma K_gone P T n tr p l : K P T n tr -> nth_error P p = Some (Some l) -> l = [] -> (forall t th f, nth_error T t = Some th -> In f (t_stack th) -> done f <> Some p) -> K (upd P p None) T n tr.
Proof.
  intros I E -> N. pose proof (upd_same _ _ _ E None) as Eq. constructor; try apply I.
  - intros i. rewrite <- (k_count _ _ _ _ I i), (sumz_upd _ _ _ _ None E). cbn. lia.
  - intros r l i d H. destruct (Nat.eq_dec p r) as [<-|Ne]; [congruence|]. rewrite upd_other in H by auto. eapply k_pool; eauto.
  - intros r. rewrite (k_wait _ _ _ _ I r). destruct (Nat.eq_dec p r) as [<-|Ne]; [rewrite E, Eq; auto|]. rewrite upd_other by auto. auto.
  - intros t th f r Et Fi D. destruct (Nat.eq_dec p r) as [<-|Ne]; [destruct (N _ _ _ Et Fi D)|]. rewrite upd_other by auto. eapply (k_done _ _ _ _ I); eauto.
Qed.
Lemma K_new P T n tr : K P T n tr -> K (P ++ [Some []]) T n tr.
Proof.
  intros I. assert (A : forall r, match nth_error (P ++ [Some []]) r with Some (Some l) => l | _ => [] end = match nth_error P r with Some (Some l) => l | _ => [] end).
  { intros r. destruct (lt_dec r (length P)); [rewrite nth_error_app1 by auto; auto|]. rewrite (proj2 (nth_error_None P r)) by lia. rewrite nth_error_app2 by lia. destruct (r - length P)%nat as [|[|]]; auto. }
  constructor; try apply I.
  - intros i. rewrite sumz_app, <- (k_count _ _ _ _ I i). cbn [sumz pw]. change (cnt i []) with 0. lia.
  - intros p l i d E Li. specialize (A p). rewrite E in A. destruct (nth_error P p) as [[l0|]|] eqn:E0; [subst l0; eapply k_pool; eauto|subst l; destruct Li..].
  - intros p. rewrite (k_wait _ _ _ _ I p). specialize (A p). destruct (nth_error P p) as [[l0|]|], (nth_error (P ++ _) p) as [[l1|]|]; subst; auto; rewrite <- A; auto.
  - intros t th f p Et Fi D. pose proof (k_done _ _ _ _ I _ _ _ _ Et Fi D) as X. rewrite nth_error_app1; auto. apply nth_error_Some. congruence.
Qed.
Lemma K_add P T n tr p l t d : K P T n tr -> nth_error P p = Some (Some l) -> (forall t th f, nth_error T t = Some th -> In f (t_stack th) -> done f <> Some p) ->
  K (upd P p (Some (l ++ [(n, d)]))) T (S n) (EAdd t p n d :: tr).
Proof.
  intros I E N. set (l' := l ++ _). pose proof (upd_same _ _ _ E (Some l')) as Eq. constructor.
  - split; [|apply (k_good _ _ _ _ I)]. intros u r x H. apply (k_lt _ _ _ _ I) in H. lia.
  - intros i. rewrite (sumz_upd _ _ _ _ (Some l') E). pose proof (k_count _ _ _ _ I i) as X. unfold l', pw, cnt in *. rewrite sumz_app. cbn [sumz fst destructions].
    destruct (Nat.eqb_spec n i), (Nat.ltb_spec i n), (Nat.ltb_spec i (S n)); try lia.
  - intros r m i e H Li. destruct (Nat.eq_dec p r) as [<-|Ne].
    + rewrite Eq in H. injection H as <-. unfold l' in Li. apply in_app_iff in Li. destruct Li as [Li|[X|[]]]; [destruct (k_pool _ _ _ _ I _ _ _ _ E Li) as (u & Y); exists u; cbn; auto|]. injection X as <- <-. exists t. cbn. auto.
    + rewrite upd_other in H by auto. destruct (k_pool _ _ _ _ I _ _ _ _ H Li) as (u & Y). exists u. cbn. auto.
  - intros u thu f r w i e H1 H2 H3 H4. destruct (k_frame _ _ _ _ I u thu f r w i e H1 H2 H3 H4) as (v & Y). exists v. cbn. auto.
  - intros u r i e [X|H]; [injection X as <- <- <- <-; lia|]. apply (k_lt _ _ _ _ I) in H. lia.
  - intros r. cbn [waiting]. rewrite (k_wait _ _ _ _ I r). destruct (Nat.eqb_spec p r) as [<-|Ne]; [rewrite E, Eq; unfold l'; rewrite map_app; auto|]. rewrite upd_other by auto. auto.
  - intros u thu f r Et Fi D. destruct (Nat.eq_dec p r) as [<-|Ne]; [destruct (N _ _ _ Et Fi D)|]. rewrite upd_other by auto. eapply (k_done _ _ _ _ I); eauto.
Qed.
Lemma K_take P T n tr t th p w k l : K P T n tr -> nth_error T t = Some th -> t_stack th = FLoop p w :: k -> nth_error P p = Some (Some l) -> K (upd P p (Some [])) (upd T t (with_stack th (FBatch p l w :: k))) n (EBatch t p :: tr).
Proof.
  intros I Et St E. pose proof (upd_same _ _ _ E (Some [])) as Eq. set (th' := with_stack th _).
  assert (C : forall u thu, nth_error (upd T t th') u = Some thu -> (u = t /\ thu = th') \/ nth_error T u = Some thu). { intros u thu Eu. destruct (Nat.eq_dec t u) as [<-|Ne]; [left; split; auto; rewrite (upd_same _ _ _ Et th') in Eu; congruence|rewrite upd_other in Eu by auto; auto]. }
  constructor.
  - split; [exact Logic.I|apply (k_good _ _ _ _ I)].
  - intros i. rewrite (sumz_upd _ _ _ _ (Some []) E). unfold inframes. rewrite (sumz_upd _ _ _ _ th' Et). pose proof (k_count _ _ _ _ I i) as X. unfold inframes in X. cbn [th' with_stack t_stack]. rewrite St. cbn [sumz flist pw destructions]. unfold cnt at 3 5. cbn [sumz]. unfold cnt in *. cbn [sumz]. lia.
  - intros r m i e H Li. destruct (Nat.eq_dec p r) as [<-|Ne]; [rewrite Eq in H; injection H as <-; destruct Li|]. rewrite upd_other in H by auto. destruct (k_pool _ _ _ _ I _ _ _ _ H Li) as (u & Y). exists u. cbn. auto.
  - intros u thu f r w' i e H1 H2 H3 H4. destruct (C u thu H1) as [(-> & ->)|Eu0].
    + destruct H2 as [<-|H2]; [cbn in H3, H4; injection H3 as <- <-; destruct (k_pool _ _ _ _ I _ _ _ _ E H4) as (v & Y)|destruct (k_frame _ _ _ _ I t th f r w' i e Et) as (v & Y); auto; [rewrite St; cbn; auto|]]; exists v; cbn; auto.
    + destruct (k_frame _ _ _ _ I u thu f r w' i e Eu0 H2 H3 H4) as (v & Y). exists v. cbn. auto.
  - intros u r i e [X|H]; [discriminate|]. eapply (k_lt _ _ _ _ I); eauto.
  - intros r. cbn [waiting]. rewrite (k_wait _ _ _ _ I r). destruct (Nat.eqb_spec p r) as [<-|Ne]; [rewrite Eq; auto|]. rewrite upd_other by auto. auto.
  - intros u thu f r Eu Fi D. destruct (Nat.eq_dec p r) as [<-|Ne]; [auto|]. rewrite upd_other by auto. destruct (C u thu Eu) as [(-> & ->)|Eu0]; [|eapply (k_done _ _ _ _ I); eauto]. destruct Fi as [<-|Fi]; [discriminate|]. eapply (k_done _ _ _ _ I t th); eauto. rewrite St. cbn. auto.
Qed.
Lemma K_destroy P T n tr t th p w k i d l : K P T n tr -> nth_error T t = Some th -> t_stack th = FBatch p ((i, d) :: l) w :: k -> K P (upd T t (with_stack th (FCb p l w :: k))) n (EDestroy t p i d :: tr).
Proof.
  intros I Et St. set (th' := with_stack th _).
  assert (C : forall u thu, nth_error (upd T t th') u = Some thu -> (u = t /\ thu = th') \/ nth_error T u = Some thu). { intros u thu Eu. destruct (Nat.eq_dec t u) as [<-|Ne]; [left; split; auto; rewrite (upd_same _ _ _ Et th') in Eu; congruence|rewrite upd_other in Eu by auto; auto]. }
  assert (Fi0 : In (FBatch p ((i, d) :: l) w) (t_stack th)) by (rewrite St; cbn; auto).
  constructor.
  - split; [|apply (k_good _ _ _ _ I)]. eapply (k_frame _ _ _ _ I t th _ p w i d Et Fi0); cbn; auto.
  - intros j. unfold inframes. rewrite (sumz_upd _ _ _ _ th' Et). pose proof (k_count _ _ _ _ I j) as X. unfold inframes in X. cbn [th' with_stack t_stack]. rewrite St. cbn [sumz flist destructions]. assert (Y : cnt j ((i, d) :: l) = (if Nat.eqb i j then 1 else 0) + cnt j l) by reflexivity. destruct (Nat.eqb i j); lia.
  - intros r m j e H Li. destruct (k_pool _ _ _ _ I _ _ _ _ H Li) as (u & Y). exists u. cbn. auto.
  - intros u thu f r w' j e H1 H2 H3 H4. destruct (C u thu H1) as [(-> & ->)|Eu0].
    + destruct H2 as [<-|H2]; [cbn in H3, H4; injection H3 as <- <-; destruct (k_frame _ _ _ _ I t th _ p w j e Et Fi0) as (v & Y); cbn; auto|destruct (k_frame _ _ _ _ I t th f r w' j e Et) as (v & Y); auto; [rewrite St; cbn; auto|]]; exists v; cbn; auto.
    + destruct (k_frame _ _ _ _ I u thu f r w' j e Eu0 H2 H3 H4) as (v & Y). exists v. cbn. auto.
  - intros u r j e [X|H]; [discriminate|]. eapply (k_lt _ _ _ _ I); eauto.
  - intros r. cbn [waiting]. apply (k_wait _ _ _ _ I r).
  - intros u thu f r Eu Fi D. destruct (C u thu Eu) as [(-> & ->)|Eu0]; [|eapply (k_done _ _ _ _ I); eauto]. destruct Fi as [<-|Fi]; [discriminate|]. apply (k_done _ _ _ _ I t th f r Et); [rewrite St; cbn; auto|exact D].
Qed.

(* ---------------- one step ---------------- *)
Definition JK (s : state) : Prop := J (view s) (s_threads s) (s_trace s) /\ K (items s) (s_threads s) (s_items s) (s_trace s).
Lemma map_upd {A B} (f : A -> B) (l : list A) : forall n a, map f (upd l n a) = upd (map f l) n (f a).
Proof. induction l as [|x l IH]; intros [|n] a; cbn; auto. rewrite IH. auto. Qed.
Lemma upd_id {A} (l : list A) : forall n a, nth_error l n = Some a -> upd l n a = l.
Proof. induction l as [|x l IH]; intros [|n] a H; cbn in *; try congruence. rewrite IH; auto. Qed.
Lemma at_view s p q : nth_error (s_pools s) p = Some (Some q) -> nth_error (view s) p = Some (Some (p_thread q)).
Proof. intros H. unfold view. rewrite nth_error_map, H. auto. Qed.
Lemma at_items s p q : nth_error (s_pools s) p = Some (Some q) -> nth_error (items s) p = Some (Some (p_items q)).
Proof. intros H. unfold items. rewrite nth_error_map, H. auto. Qed.
Lemma view_pool s p q q' : nth_error (s_pools s) p = Some (Some q) -> p_thread q' = p_thread q -> view (set_pool s p (Some q')) = view s.
Proof. intros Q T. unfold view. flat. rewrite map_upd. apply upd_id. rewrite nth_error_map, Q. cbn. congruence. Qed.
Lemma items_pool s p q q' : nth_error (s_pools s) p = Some (Some q) -> p_items q' = p_items q -> items (set_pool s p (Some q')) = items s.
Proof. intros Q T. unfold items. flat. rewrite map_upd. apply upd_id. rewrite nth_error_map, Q. cbn. congruence. Qed.
Lemma jk_pool s p q q' : JK s -> nth_error (s_pools s) p = Some (Some q) -> p_thread q' = p_thread q -> p_items q' = p_items q -> JK (set_pool s p (Some q')).
Proof. intros (A & B) Q T I. unfold JK. rewrite (view_pool _ _ _ _ Q T), (items_pool _ _ _ _ Q I). split; auto. Qed.
Lemma jk_emit s e : JK s -> dull e = true -> kdull e = true -> JK (emit s e).
Proof. intros (A & B) D1 D2. split; [apply J_dull; auto|apply K_dull; auto]. Qed.
Lemma jk_swap s t th f k g : JK s -> nth_error (s_threads s) t = Some th -> t_stack th = f :: k -> flist g = flist f -> fcaller g = fcaller f -> fj g = fj f -> (forall n, g <> FExit n) -> (forall p, done g = Some p -> exists q, nth_error (s_pools s) p = Some (Some q) /\ p_items q = [] /\ flist g = []) ->
  JK (set_threads s (upd (s_threads s) t (with_stack th (g :: k)))).
Proof.
  intros (A & B) E St L F Fj NE D. split; flat.
  - eapply J_thread; eauto. intros h [<-|H]; [|left; rewrite St; cbn; auto]. right. split; [|intros n X; destruct (NE n X)]. intros p w X. rewrite Fj in X. eapply (j_frame _ _ _ A t th f E); [rewrite St; cbn; auto|exact X].
  - eapply K_swap; eauto. intros p Dp. destruct (D p Dp) as (q & Q & Qi & L0). split; auto. unfold items in *. flat. rewrite nth_error_map, Q. cbn. rewrite Qi. auto.
Qed.
Lemma jk_pop s t th f k : JK s -> nth_error (s_threads s) t = Some th -> t_stack th = f :: k -> flist f = [] -> JK (set_threads s (upd (s_threads s) t (with_stack th k))).
Proof. intros (A & B) E St L. split; flat; [eapply J_thread; eauto; intros h H; left; rewrite St; cbn; auto|eapply K_pop; eauto]. Qed.
Lemma jk_push s t th g : JK s -> nth_error (s_threads s) t = Some th -> flist g = [] -> done g = None -> jf t (s_trace s) g -> (forall n, g <> FExit n) -> JK (set_threads s (upd (s_threads s) t (with_stack th (g :: t_stack th)))).
Proof. intros (A & B) E L D Jf NE. split; flat; [eapply J_thread; eauto; intros h [<-|H]; auto; right; split; auto; intros n X; destruct (NE n X)|apply K_push; auto]. Qed.
Lemma no_slot s p u thu : Inv (Some p) s -> (exists q, nth_error (s_pools s) p = Some (Some q) /\ p_refs q = 1) -> nth_error (s_threads s) u = Some thu -> t_slot thu <> Some p.
Proof.
  intros I (q & Q & R1) E Sl. pose proof (i_refs _ _ I p) as R. rewrite Q, R1, hold_same in R. pose proof (i_own _ _ I p). pose proof (nsrcs_nonneg p s).
  assert (1 <= slots p s); [|lia]. unfold slots. rewrite <- (hold_same p), <- Sl. apply (sumz_in (fun th => hold p (t_slot th))); auto. eapply nth_error_In; eauto.
Qed.
Lemma drop_jk s s' t th p : Inv (Some p) s -> JK s -> nth_error (s_threads s) t = Some th -> drop s t p = Ok s' -> JK s'.
Proof.
  intros I A E. unfold drop. destruct (the_pool s p) as [q|] eqn:Q0; [|discriminate]. cbn [bind]. assert (Q : nth_error (s_pools s) p = Some (Some q)) by (unfold the_pool in Q0; destruct (nth_error (s_pools s) p) as [[]|]; congruence).
  set (s1 := set_pool _ _ _). assert (A1 : JK s1) by (eapply jk_pool; eauto). destruct (Z.eqb_spec (p_refs q - 1) 0) as [R|R]; intros X; injection X as <-; auto.
  rewrite (push_eq _ _ th) by exact E. apply jk_push; auto; [apply jk_emit; auto| |discriminate]. intros r w X. injection X as <- <-. intros u [Y|Y]; [discriminate|]. left. right. destruct A as (A & _).
  destruct (j_new _ _ _ A _ _ Y) as (_ & thu & Eu & Lu). apply (j_exit _ _ _ A _ _ Eu). destruct (t_life thu) eqn:Lf; auto; [congruence|]. destruct (no_slot s p u thu I); auto; [exists q; split; auto; lia|]. eapply j_keep; eauto.
Qed.
Lemma bound_jk s : Inv None s -> forall u thu f p w, nth_error (s_threads s) u = Some thu -> In f (t_stack thu) -> fj f = Some (p, w) -> (p < length (view s))%nat.
Proof.
  intros I u thu f p w E Fi Fc. assert (G : fcaller f = Some (p, w)) by (destruct f; cbn in *; congruence). destruct (frame_live _ _ _ _ _ _ I E Fi G) as (q & Q & _).
  unfold view. rewrite map_length. apply nth_error_Some. congruence.
Qed.
Lemma default_jk s t th s' p : Inv None s -> JK s -> nth_error (s_threads s) t = Some th -> exists_thread th = true -> get_default s t th = (s', p) -> JK s' /\ In (ENew t p) (s_trace s') /\ s_items s' = s_items s.
Proof.
  intros I (A & B) E EX. unfold get_default. destruct (t_slot th) as [p0|] eqn:Sl; intros G; injection G as <- <-.
  - pose proof (j_slot _ _ _ A _ _ _ E Sl) as N. split; [|split; [right; exact N|reflexivity]]. split; [apply J_mark; auto|apply K_dull; auto].
  - rewrite (on_thread_eq _ _ th) by exact E. flat. split; [|split; [cbn; auto|reflexivity]]. split; unfold view, items in *; flat; rewrite map_app; cbn [map option_map].
    + apply J_mark; [|reflexivity|cbn; auto]. pose proof (J_new _ _ _ t th A E Sl EX (bound_jk s I)) as X. rewrite map_length in X. exact X.
    + apply K_dull; [|reflexivity]. apply K_dull; [|reflexivity]. apply K_new. eapply K_stack; eauto.
Qed.
(* the reference count is zero while a pool is being finalized *)
Lemma slot_not_done s t th p : Inv None s -> nth_error (s_threads s) t = Some th -> t_slot th = Some p -> forall u thu f, nth_error (s_threads s) u = Some thu -> In f (t_stack thu) -> done f <> Some p.
Proof.
  intros I E Sl u thu f Eu Fi D. assert (G : fcaller f = Some (p, WFinal)) by (destruct f; cbn in *; try discriminate; destruct w; congruence).
  destruct (frame_live _ _ _ _ _ _ I Eu Fi G) as (q & Q & R). destruct (slot_live _ _ _ _ _ I E Sl) as (q1 & Q1 & R1). assert (q1 = q) by congruence. subst. destruct R as (R & _). specialize (R eq_refl). lia.
Qed.
Lemma drain_end_jk s s' t th f k p w : Inv None s -> JK s -> nth_error (s_threads s) t = Some th -> t_stack th = f :: k -> fcaller f = Some (p, w) -> fj f = Some (p, w) -> flist f = [] -> (w = WFinal -> exists q, nth_error (s_pools s) p = Some (Some q) /\ p_items q = []) ->
  drain_end s t p w = Ok s' -> JK s'.
Proof.
  intros I A E St G Gj L Em. assert (Fi : In f (t_stack th)) by (rewrite St; cbn; auto). unfold drain_end. rewrite (pop_eq _ _ _ _ _ E St). set (th' := with_stack th k).
  assert (A1 : JK (set_threads s (upd (s_threads s) t th'))) by (eapply jk_pop; eauto). assert (A2 := jk_emit _ (EDrained t p w) A1 eq_refl eq_refl). destruct w as [|c id|].
  - intros X. injection X as <-. exact A2.
  - unfold idle_end. intros X. refine (drop_jk _ _ t th' p _ _ _ X); [|apply (jk_emit _ (EIdleEnd t c id p)) in A2; auto; exact A2|flat; apply (upd_same _ _ _ E)].
    pose proof (inv_idle_end _ _ _ _ _ _ _ _ I E St G) as Y. apply (inv_emit _ _ (EDrained t p (WIdle c id))) in Y; [|reflexivity]. apply (inv_emit _ _ (EIdleEnd t c id p)) in Y; [|reflexivity]. exact Y.
  - destruct (Em eq_refl) as (q & Q & Qi). flat. rewrite Q. intros X. injection X as <-. destruct A2 as (A2 & B2). split.
    + unfold view. flat. rewrite map_upd. cbn [option_map]. apply J_mark; [apply J_gone; exact A2|reflexivity|]. intros u [Y|Y]; [discriminate|]. right. destruct A as (A & _). destruct (j_frame _ _ _ A _ _ _ E Fi _ _ Gj u Y) as [Z|(Z & _)]; [exact Z|congruence].
    + unfold items. flat. rewrite map_upd. cbn [option_map]. apply K_dull; [|reflexivity]. apply (K_gone _ _ _ _ _ []); [exact B2| |reflexivity|].
      * unfold items. flat. rewrite nth_error_map, Q. cbn. rewrite Qi. auto.
      * pose proof (inv_gone _ _ _ _ _ _ I E St G) as Y. fold th' in Y. intros u thu g Eu Gi D. assert (Gc : fcaller g = Some (p, WFinal)) by (destruct g; cbn in *; try discriminate; destruct w; congruence).
        destruct (frame_live _ u thu g p WFinal Y Eu Gi Gc) as (q1 & Q1 & _). flat. unfold set_pool in Q1. cbn in Q1. rewrite (upd_same _ _ _ Q) in Q1. discriminate.
Qed.
Lemma pool_of s p q : the_pool s p = Ok q -> nth_error (s_pools s) p = Some (Some q).
Proof. unfold the_pool. destruct (nth_error (s_pools s) p) as [[]|]; congruence. Qed.
Lemma loop_jk s s' t th k p w : Inv None s -> JK s -> nth_error (s_threads s) t = Some th -> t_stack th = FLoop p w :: k -> loop s t p w = Ok s' -> JK s'.
Proof.
  intros I A E St. unfold loop. destruct (the_pool s p) as [q|] eqn:Q0; [|discriminate]. cbn [bind]. apply pool_of in Q0. destruct (p_items q) as [|i l] eqn:Qi.
  - destruct (Nat.eqb (p_idle q) 0); [intros X; eapply drain_end_jk; eauto; reflexivity|]. intros X. injection X as <-. rewrite (swap_eq _ t th (FLoop p w) k); [|exact E|exact St].
    apply (jk_swap _ t th (FLoop p w) k); auto; [|discriminate|].
    + eapply jk_pool; eauto.
    + intros r D. assert (r = p) as -> by (destruct w; cbn in D; congruence). flat. rewrite (upd_same _ _ _ Q0). eexists. split; [reflexivity|]. auto.
  - intros X. injection X as <-. rewrite (swap_eq _ t th (FLoop p w) k); [|exact E|exact St]. destruct A as (A & B). split.
    + unfold view. flat. rewrite map_upd. rewrite (upd_id (map _ _)) by (rewrite nth_error_map, Q0; reflexivity). apply J_dull; [|reflexivity]. eapply J_thread; eauto. intros h [<-|H]; [|left; rewrite St; cbn; auto]. right. split; [|discriminate]. intros r w' X. apply (j_frame _ _ _ A t th (FLoop p w) E); [rewrite St; cbn; auto|exact X].
    + unfold items. flat. rewrite map_upd. cbn [option_map]. rewrite <- Qi. eapply K_take; eauto. apply at_items; auto.
Qed.
Lemma remove_jk s s' t th k p id w : Inv None s -> JK s -> nth_error (s_threads s) t = Some th -> t_stack th = FRemove p id w :: k -> remove s t p id w = Ok s' -> JK s'.
Proof.
  intros I A E St. assert (I1 : Inv None (swap s t (FRemoved p w))) by (eapply inv_swap; [exact I|exact E|exact St|reflexivity|discriminate]). unfold remove. rewrite (swap_eq _ _ _ _ _ _ E St) in *. flat. pose proof (upd_same _ _ _ E (with_stack th (FRemoved p w :: k))) as Eq.
  assert (A1 : JK (set_threads s (upd (s_threads s) t (with_stack th (FRemoved p w :: k))))).
  { apply (jk_swap _ t th (FRemove p id w) k); auto; [discriminate|]. intros r D. assert (D0 : done (FRemove p id w) = Some r) by (destruct w; cbn in *; congruence). destruct A as (_ & B). pose proof (k_done _ _ _ _ B t th (FRemove p id w) r E) as X. rewrite St in X. specialize (X (or_introl eq_refl) D0).
    unfold items in X. rewrite nth_error_map in X. destruct (nth_error (s_pools s) r) as [[q|]|]; try discriminate. injection X as X. exists q. auto. }
  destruct (find _ (s_srcs s)) as [y|] eqn:Fd; [|intros X; injection X as <-; apply (jk_emit _ (EBad t p id)) in A1; auto]. apply found in Fd. destruct Fd as (Y & P & Lv). unfold pair_of in P. injection P as P1 P2.
  apply (inv_emit _ _ (EUnsource t p id 0 (c_owner y))) in I1; [|reflexivity]. apply (jk_emit _ (EUnsource t p id 0 (c_owner y))) in A1; auto. destruct (c_owner y) as [o|] eqn:Ow.
  - destruct (c_stat y) eqn:Sy; intros X; [|injection X as <-; exact A1..].
    refine (drop_jk _ _ t _ o _ _ _ X); [|exact A1|flat; exact Eq]. pose proof (inv_without _ y o I1 Y Ow Sy) as Z. rewrite P1, P2 in Z. exact Z.
  - intros X. injection X as <-. exact A1.
Qed.
Lemma close_jk s s' t th k c : Inv None s -> JK s -> nth_error (s_threads s) t = Some th -> t_stack th = FClose c :: k -> close_step s t c = Ok s' -> JK s'.
Proof.
  intros I A E St. unfold close_step. destruct (find _ (s_srcs s)) as [y|] eqn:Fd; [|intros X; injection X as <-; rewrite (pop_eq _ _ _ _ _ E St); eapply jk_pop; eauto].
  apply find_some in Fd. destruct Fd as (Y & P). apply andb_true_iff in P. destruct P as (P & Q). apply Nat.eqb_eq in P. assert (Sy : c_stat y = SIdle) by (destruct (c_stat y); congruence).
  apply (jk_emit _ (EClosed c (c_id y) (c_owner y))) in A; auto. destruct (c_owner y) as [o|] eqn:Ow; intros X.
  - refine (drop_jk _ _ t th o _ _ _ X); [|exact A|exact E]. apply inv_emit; auto. pose proof (inv_without _ y o I Y Ow Sy) as Z. rewrite P in Z. exact Z.
  - injection X as <-. exact A.
Qed.
Lemma exit_jk s s' t th n : Inv None s -> JK s -> nth_error (s_threads s) t = Some th -> t_stack th = [FExit n] -> t_life th = Exiting -> exit_step s t th n = Ok s' -> JK s'.
Proof.
  intros I A E St Lf. assert (EX : exists_thread th = true) by (unfold exists_thread; rewrite Lf; auto).
  assert (End : JK (emit (on_thread (pop s t) t (fun th => with_ctx (with_life th Dead) 0)) (EDead t))).
  { rewrite (pop_eq _ _ _ _ _ E St). set (s1 := set_threads _ _). assert (E1 : nth_error (s_threads s1) t = Some (with_stack th [])) by apply (upd_same _ _ _ E). rewrite (on_thread_eq _ _ _ _ E1). unfold s1. flat. rewrite upd_twice. apply jk_emit; auto. destruct A as (A & B). split; flat.
    - eapply J_thread; eauto. cbn. intros f [].
    - eapply K_stack; eauto; [rewrite St; cbn; auto|cbn; intros f []]. }
  unfold exit_step. destruct (t_slot th) as [p|] eqn:Sl; [|intros X; injection X as <-; exact End]. destruct n as [|n]; [intros X; injection X as <-; exact End|].
  rewrite (on_thread_eq _ _ _ _ E). pose proof (upd_same _ _ _ E (with_slot th None)) as Eq. rewrite (swap_eq (set_threads s (upd (s_threads s) t (with_slot th None))) t (with_slot th None) (FExit (S n)) [] (FExit n)); [|exact Eq|exact St]. flat. rewrite upd_twice.
  intros X. refine (drop_jk _ _ t _ p _ _ _ X); [| |flat; apply (upd_same _ _ _ E)]; set (th' := with_stack _ _).
  - assert (I1 : Inv (Some p) (set_threads s (upd (s_threads s) t th'))); [|exact I1]. eapply inv_thread; eauto; unfold th'; cbn [t_slot t_stack t_ctx with_stack with_slot].
    + intros r. rewrite Sl. cbn. lia.
    + rewrite St. reflexivity.
    + rewrite St. reflexivity.
    + intros f' r [<-|[]] Fc. discriminate.
    + intros f' r c id [<-|[]] Fc. discriminate.
    + apply (i_ctx _ _ I _ _ E).
    + reflexivity.
  - destruct A as (A & B). split; flat; fold th'.
    + eapply J_thread; eauto; cbn; [right; split; auto; congruence|]. intros f [<-|[]]. right. split; [intros r w X1; discriminate|]. intros m _. apply (j_exit _ _ _ A t th E). auto.
    + eapply K_stack; eauto; unfold th'; cbn; rewrite St; cbn; auto. intros g [<-|[]]. right. left. split; auto. discriminate.
Qed.
Lemma call_jk s s' t th c : Inv None s -> fair s (t, ACall c) -> JK s -> nth_error (s_threads s) t = Some th -> exists_thread th = true -> do_call s t th c = Ok s' -> JK s'.
Proof.
  intros I F A E EX. unfold do_call. destruct (get_default s t th) as (s1 & p) eqn:D. destruct (default_ok _ _ _ _ _ I E D) as (I1 & E1 & Cx & Sr & q & Q & Pq). destruct (default_jk _ _ _ _ _ I A E EX D) as (A1 & N1 & It). destruct c as [|d| | |r].
  - intros X. injection X as <-. exact A1.
  - unfold add. rewrite D. set (s2 := emit _ _). assert (Q2 : nth_error (s_pools s2) p = Some (Some q)) by exact Q. rewrite (pool_at _ _ _ Q2). cbn [bind]. set (its := p_items q ++ _).
    assert (Main : forall s3 qn, s_pools s3 = s_pools s2 -> s_threads s3 = s_threads s2 -> s_items s3 = s_items s2 -> (s_trace s3 = s_trace s2 \/ exists e, s_trace s3 = e :: s_trace s2 /\ dull e = true /\ kdull e = true) -> p_thread qn = p_thread q -> p_items qn = its -> JK (set_pool s3 p (Some qn))).
    { intros s3 qn P3 T3 I3 Tr3 Tq Iq. assert (A2 : J (view s1) (s_threads s2) (s_trace s2)) by (destruct A1 as (A1 & _); apply (J_mark _ _ _ (EAdd t p (s_items s1) d)); auto).
      assert (B2 : K (upd (items s1) p (Some its)) (s_threads s2) (s_items s2) (s_trace s2)).
      { destruct A1 as (_ & B1). apply (K_add _ _ _ _ p (p_items q)); auto; [apply at_items; auto|]. exact (slot_not_done s1 t _ p I1 E1 eq_refl). }
      assert (V : view (set_pool s3 p (Some qn)) = view s1). { unfold view. flat. rewrite P3, map_upd. apply upd_id. unfold s2. flat. rewrite nth_error_map, Q. cbn. congruence. }
      assert (W : items (set_pool s3 p (Some qn)) = upd (items s1) p (Some its)). { unfold items. flat. rewrite P3, map_upd. cbn [option_map]. rewrite Iq. reflexivity. }
      unfold JK. rewrite V, W. flat. rewrite T3, I3. destruct Tr3 as [->|(e & -> & De & Dk)]; split; auto; [apply J_dull; auto|apply K_dull; auto]. }
    destruct (Nat.eqb (p_idle q) 0).
    + unfold attach. destruct (nth_error (s_ctxs s2) (t_ctx th)) as [(id & [|])|]; cbn [bind]; try discriminate. intros X. injection X as <-. apply Main; auto. right. eexists. split; [reflexivity|]. auto.
    + intros X. injection X as <-. apply Main; auto.
  - intros X. injection X as <-. rewrite (push_eq _ _ (with_slot th (Some p))) by exact E1. apply jk_push; auto; [apply jk_emit; auto| |discriminate]. intros r w X. injection X as <- <-. intros u [Y|Y]; [discriminate|]. right. split; [discriminate|]. destruct A1 as (A1 & _). eapply good_new; [apply (j_good _ _ _ A1)|exact Y|exact N1].
  - rewrite (pool_at _ _ _ Q). cbn [bind]. intros X. injection X as <-. apply jk_emit; auto. eapply jk_pool; eauto.
  - intros X. refine (drop_jk _ _ t th r _ _ _ X); [|apply jk_emit; auto|exact E]. apply (inv_owned None); auto; intros r0; cbn [owned hold]; [destruct (Nat.eqb r r0); lia|]. pose proof (i_own _ _ I r0). cbn in F. destruct (Nat.eqb_spec r r0); [subst; lia|lia].
Qed.
Lemma client_jk s s' t th a : Inv None s -> fair s (t, a) -> JK s -> nth_error (s_threads s) t = Some th -> exists_thread th = true -> client s t th a = Ok s' -> JK s'.
Proof.
  intros I F A E EX. assert (Same : Ok s = Ok s' -> JK s') by (intros X; injection X as <-; auto). destruct a as [| |c| |c id|c|c|c|b n]; cbn [client]; auto.
  - eapply call_jk; eauto.
  - destruct (is_open s c); auto. unfold dispatch. destruct (find _ (s_srcs s)) as [y|] eqn:Fd; auto. destruct (c_owner y) as [p|] eqn:Ow; [|intros X; injection X as <-; apply jk_emit; auto].
    destruct (c_stat y); auto. set (s1 := emit _ _). assert (A1 : JK s1) by (apply (jk_emit _ (EIdle t c id p)) in A; auto). destruct (the_pool s1 p) as [q|] eqn:Q0; [|discriminate]. apply pool_of in Q0. cbn [bind]. intros X. injection X as <-. rewrite (push_eq _ _ th) by exact E.
    apply jk_push; auto; try (destruct (Nat.eqb _ _); reflexivity); [..|intros n; destruct (Nat.eqb _ _); discriminate].
    + eapply jk_pool; eauto.
    + intros r w. destruct (Nat.eqb_spec (p_thread q) (t_self th)) as [Te|]; [|discriminate]. intros X. injection X as <- <-. intros u N. flat. destruct A1 as (A1 & _). destruct (j_new _ _ _ A1 _ _ N) as (_ & thu & Eu & Lu). destruct (t_life thu) eqn:Lf; [congruence| |left; apply (j_exit _ _ _ A1 _ _ Eu); auto..].
      right. split; [discriminate|]. apply (j_dist _ _ _ A1 u t thu th); auto; [unfold exists_thread; rewrite Lf; auto|]. pose proof (j_self _ _ _ A1 u thu p _ (at_view _ _ _ Q0) N Eu). congruence.
  - intros X. injection X as <-. destruct (is_open s c); auto. rewrite (on_thread_eq _ _ _ _ E). destruct A as (A & B). split; flat; [eapply J_thread; eauto|eapply K_stack; eauto].
  - destruct (is_open s c); auto. unfold attach. destruct (nth_error (s_ctxs s) c) as [(id & [|])|]; cbn [bind]; try discriminate. intros X. injection X as <-. exact (jk_emit _ (ESource c id None) A eq_refl eq_refl).
  - intros X. injection X as <-. destruct (unused s c); auto. rewrite (push_eq _ _ th) by exact E. apply jk_push; auto; [|discriminate]. intros r w X. discriminate.
Qed.

Lemma step_jk s s' x : Inv None s -> fair s x -> JK s -> step s x = Ok s' -> JK s'.
Proof.
  intros I F A. destruct x as (t & a). unfold step. assert (Same : Ok s = Ok s' -> JK s') by (intros X; injection X as <-; auto). destruct (nth_error (s_threads s) t) as [th|] eqn:E; auto. destruct (i_shape _ _ I _ _ E) as (S1 & S2). destruct (t_stack th) as [|f k] eqn:St.
  - destruct (t_life th) eqn:L; auto.
    + destruct a; auto. destruct (existsb _ (s_threads s)) eqn:Ex; auto. intros X. injection X as <-. rewrite (on_thread_eq _ _ _ _ E). apply jk_emit; auto. destruct A as (A & B). split; flat; [apply J_start; auto|eapply K_stack; eauto].
    + assert (EX : exists_thread th = true) by (unfold exists_thread; rewrite L; auto). destruct a as [| |c| |c id|c|c|c|b n]; try (intros; eapply client_jk; eauto; fail). intros X. injection X as <-.
      rewrite (on_thread_eq _ _ _ _ E). pose proof (upd_same _ _ _ E (with_ctx (with_life th Exiting) (if b then 0 else t_ctx th)%nat)) as Eq.
      rewrite (push_eq _ _ (with_ctx (with_life th Exiting) (if b then 0 else t_ctx th)%nat)) by exact Eq. flat. rewrite upd_twice. cbn [t_stack with_ctx with_life]. rewrite St. destruct A as (A & B). split; flat.
      * apply J_exit; auto.
      * apply K_dull; [|reflexivity]. eapply K_stack; eauto; cbn; rewrite St; cbn; auto. intros g [<-|[]]. right. left. split; auto. discriminate.
  - assert (EX : exists_thread th = true) by (apply S2; congruence). destruct f as [p w|p l w|p l w|p id w|p w|p c id|n|c].
    + destruct a; auto. eapply loop_jk; eauto.
    + destruct a; auto. unfold batch. destruct l as [|(i & d) l]; intros X; injection X as <-.
      * rewrite (swap_eq _ t th (FBatch p [] w) k); [|exact E|exact St]. apply (jk_swap _ t th (FBatch p [] w) k); auto; discriminate.
      * rewrite (swap_eq _ t th (FBatch p ((i, d) :: l) w) k); [|exact E|exact St]. destruct A as (A & B). assert (Fi : In (FBatch p ((i, d) :: l) w) (t_stack th)) by (rewrite St; cbn; auto). split; flat.
        -- apply J_mark; [|reflexivity|].
           ++ eapply J_thread; eauto. intros h [<-|H]; [|left; rewrite St; cbn; auto]. right. split; [|discriminate]. intros r w' X. apply (j_frame _ _ _ A t th _ E Fi). exact X.
           ++ intros u N. destruct (j_frame _ _ _ A t th _ E Fi p w eq_refl u N) as [|(_ & ->)]; auto.
        -- eapply K_destroy; eauto.
    + destruct a as [| |c| |c id|c|c|c|b n]; try (intros; eapply client_jk; eauto; fail). intros X. injection X as <-. rewrite (swap_eq _ t th (FCb p l w) k); [|exact E|exact St]. apply (jk_swap _ t th (FCb p l w) k); auto; try discriminate. apply jk_emit; auto.
    + destruct a; auto. eapply remove_jk; eauto.
    + destruct a; auto. intros X. eapply drain_end_jk; eauto; try reflexivity. intros ->. destruct A as (_ & B). assert (Fi : In (FRemoved p WFinal) (t_stack th)) by (rewrite St; cbn; auto). pose proof (k_done _ _ _ _ B t th _ p E Fi eq_refl) as Y.
      unfold items in Y. rewrite nth_error_map in Y. destruct (nth_error (s_pools s) p) as [[q|]|]; try discriminate. injection Y as Y. eauto.
    + destruct a; auto. unfold idle_end. rewrite (pop_eq _ _ _ _ _ E St). intros X. refine (drop_jk _ _ t _ p _ _ _ X); [| |flat; apply (upd_same _ _ _ E)].
      * apply inv_emit; [|reflexivity]. exact (inv_idle_end _ _ _ _ _ _ _ _ I E St eq_refl).
      * refine (jk_emit _ (EIdleEnd t c id p) _ eq_refl eq_refl). exact (jk_pop _ _ _ _ _ A E St eq_refl).
    + destruct a; auto. cbn in S1. subst k. apply exit_jk; auto. destruct A as (A & _). assert (X : In (EExit t) (s_trace s)) by (eapply (j_ex _ _ _ A t th n); eauto; rewrite St; cbn; auto). apply (j_exit _ _ _ A t th E) in X. unfold exists_thread in EX. destruct X as [X|X]; auto. rewrite X in EX. discriminate.
    + destruct a; auto. eapply close_jk; eauto.
Qed.
Lemma start_jk selfs n : JK (start selfs n).
Proof.
  assert (Th : forall t th, nth_error (s_threads (start selfs n)) t = Some th -> t_stack th = [] /\ t_slot th = None /\ t_life th = Unborn). { intros t th H. apply nth_error_In in H. cbn in H. apply in_map_iff in H. destruct H as (a & <- & _). auto. }
  split.
  - constructor; try (cbn; auto; contradiction).
    + intros t th p E. destruct (Th t th E) as (_ & -> & _). discriminate.
    + intros t th E. destruct (Th t th E) as (_ & _ & ->). cbn. split; [tauto|intros [|]; discriminate].
    + intros t u th thu E Eu X. unfold exists_thread in X. destruct (Th t th E) as (_ & _ & Y). rewrite Y in X. discriminate.
    + intros t th f E Fi. destruct (Th t th E) as (Y & _ & _). rewrite Y in Fi. destruct Fi.
    + intros t th m E Fi. destruct (Th t th E) as (Y & _ & _). rewrite Y in Fi. destruct Fi.
  - constructor; try (cbn; auto; contradiction).
    + intros i. assert (Z0 : inframes i (s_threads (start selfs n)) = 0); [apply sumz_zero|rewrite Z0; reflexivity]. intros th H. apply In_nth_error in H. destruct H as (t & H). destruct (Th t th H) as (-> & _). auto.
    + intros [|p] l i d; discriminate.
    + intros t th f p w i d E Fi. destruct (Th t th E) as (Y & _ & _). rewrite Y in Fi. destruct Fi.
    + intros [|p]; reflexivity.
    + intros t th f p E Fi. destruct (Th t th E) as (Y & _ & _). rewrite Y in Fi. destruct Fi.
Qed.
Lemma run_jk l : forall s s', Inv None s -> all_along fair s l -> JK s -> run s l = Ok s' -> JK s'.
Proof.
  induction l as [|a l IH]; intros s s' I F A; cbn [run]; [congruence|]. destruct F as (F & Fl). destruct (step_ok s a I F) as (s1 & E & I1). rewrite E in *. cbn [bind]. apply IH; auto. exact (step_jk _ _ _ I F A E).
Qed.
