(* Proofs about the idle pool: an invariant of all executions *)
From Verif Require Import Base IdlePoolModel IdlePoolSpec.
From Coq Require Import Permutation.

(* ---------------- lists in the heap ---------------- *)
Fixpoint lseg (h : heap) (p : option nat) (l : list nat) : Prop :=
  match l with
  | [] => p = None
  | a :: l => p = Some a /\ exists it, nth_error h a = Some (Some it) /\ lseg h (it_next it) l
  end.
Fixpoint lasto (l : list nat) : option nat := match l with [] => None | [a] => Some a | _ :: t => lasto t end.
Definition alive (h : heap) (a : nat) : Prop := exists it, nth_error h a = Some (Some it).
Definition same (h h' : heap) (l : list nat) : Prop := forall a, In a l -> nth_error h' a = nth_error h a.

Lemma same_incl h h' l l' : incl l' l -> same h h' l -> same h h' l'.
Proof. intros I K a Ia. apply K. auto. Qed.
Lemma same_upd h a x l : ~ In a l -> same h (upd h a x) l.
Proof. intros N b Ib. apply nth_error_upd_ne. intros ->. contradiction. Qed.
Lemma same_app h x l : (forall a, In a l -> alive h a) -> same h (h ++ x) l.
Proof. intros A a I. destruct (A a I) as (it & E). apply nth_error_app1. apply nth_error_Some. congruence. Qed.
Lemma same_trans h h' h'' l : same h h' l -> same h' h'' l -> same h h'' l.
Proof. intros A B a I. rewrite (B a I). apply A. auto. Qed.
Lemma same_alive h h' l a : same h h' l -> In a l -> alive h a -> alive h' a.
Proof. intros S1 I (it & E). exists it. rewrite S1; auto. Qed.
Lemma lseg_same h h' l : same h h' l -> forall p, lseg h p l -> lseg h' p l.
Proof.
  induction l as [|a l IH]; intros K p; cbn; auto. intros (E & it & N & R). split; auto.
  exists it. split. { rewrite K; cbn; auto. } apply IH; auto. eapply same_incl; [|exact K]. intros x; cbn; auto.
Qed.
Lemma lseg_alive h l : forall p, lseg h p l -> forall a, In a l -> alive h a.
Proof. induction l as [|x l IH]; intros p; cbn; [tauto|]. intros (E & it & N & R) a [->|I]; [exists it; auto|eapply IH; eauto]. Qed.
Lemma lseg_det h l : forall p l', lseg h p l -> lseg h p l' -> l = l'.
Proof.
  induction l as [|a l IH]; intros p [|b l']; cbn; auto; intros A B.
  - destruct B. congruence.
  - destruct A. congruence.
  - destruct A as (-> & it & N & A), B as (E & it' & N' & B). injection E as <-. rewrite N in N'. injection N' as <-. f_equal. eauto.
Qed.
Lemma lseg_tail h l l' : forall p, lseg h p (l ++ l') -> exists q, lseg h q l'.
Proof. induction l as [|a l IH]; cbn; eauto. intros p (_ & it & _ & R). eauto. Qed.

Lemma get_ok h a it : nth_error h a = Some (Some it) -> get h a = Ok it.
Proof. unfold get. intros ->. reflexivity. Qed.
Lemma put_ok h a it x : nth_error h a = Some (Some it) -> put h a x = Ok (upd h a (Some x)).
Proof. intros E. unfold put. rewrite (get_ok _ _ _ E). reflexivity. Qed.
Lemma release_ok h a it : nth_error h a = Some (Some it) -> release h a = Ok (upd h a None).
Proof. intros E. unfold release. rewrite (get_ok _ _ _ E). reflexivity. Qed.
Lemma upd_here {A} (h : list A) a x y : nth_error h a = Some x -> nth_error (upd h a y) a = Some y.
Proof. intros E. apply nth_error_upd_eq. apply nth_error_Some. congruence. Qed.
Lemma alive_lt h a : alive h a -> (a < length h)%nat.
Proof. intros (it & E). apply nth_error_Some. congruence. Qed.
Lemma nodup_bound (l : list nat) n : NoDup l -> (forall a, In a l -> (a < n)%nat) -> (length l <= n)%nat.
Proof. intros D B. rewrite <- (seq_length n 0). apply NoDup_incl_length; auto. intros a I. apply in_seq. specialize (B a I). lia. Qed.

(* freeing a chain *)
Lemma chain_ok l : forall fuel h p, lseg h p l -> NoDup l -> (length l <= fuel)%nat ->
  exists h', free_chain fuel h p = Ok h' /\ length h' = length h /\ (forall a, ~ In a l -> nth_error h' a = nth_error h a) /\
    (forall a, In a l -> nth_error h' a = Some None).
Proof.
  induction l as [|a l IH]; intros fuel h p R D B; cbn in R.
  - subst. exists h. destruct fuel; cbn; repeat split; auto; intros; contradiction.
  - destruct R as (-> & it & N & R). inversion D as [|? ? NI D']; subst. destruct fuel as [|fuel]; [cbn in B; lia|].
    cbn [free_chain]. rewrite (get_ok _ _ _ N). cbn [bind]. rewrite (release_ok _ _ _ N). cbn [bind].
    destruct (IH fuel (upd h a None) (it_next it)) as (h' & E & Ln & O & I); auto.
    { eapply lseg_same; [|exact R]. apply same_upd. auto. }
    { cbn in B. lia. }
    exists h'. split; [exact E|]. split; [rewrite Ln; apply upd_length|]. split.
    + intros x Nx. rewrite O by (cbn in Nx; tauto). apply nth_error_upd_ne. cbn in Nx. intros ->. tauto.
    + intros x [->|Ix]; auto. rewrite O by auto. eapply upd_here; eauto.
Qed.
(* appending *)
Lemma lasto_app l a : lasto (l ++ [a]) = Some a.
Proof. induction l as [|x l IH]; auto. cbn. rewrite IH. destruct l; reflexivity. Qed.
Lemma lasto_in l a : lasto l = Some a -> exists l', l = l' ++ [a].
Proof.
  induction l as [|x l IH]; [discriminate|]. cbn. destruct l as [|y l].
  - intros E. injection E as ->. exists []. reflexivity.
  - intros E. destruct (IH E) as (l' & ->). exists (x :: l'). reflexivity.
Qed.
Lemma lseg_snoc l b : forall h h' p a n, lseg h p (l ++ [a]) -> NoDup (l ++ [a]) -> same h h' l ->
  nth_error h' a = Some (Some n) -> it_next n = Some b -> (exists it, nth_error h' b = Some (Some it) /\ it_next it = None) -> lseg h' p ((l ++ [a]) ++ [b]).
Proof.
  induction l as [|x l IH]; cbn; intros h h' p a n R D K Na En (it & Nb & Eb).
  - destruct R as (-> & _). split; auto. exists n. split; auto. rewrite En. cbn. split; auto. exists it. auto.
  - destruct R as (-> & ix & Nx & R). inversion D; subst. split; auto. exists ix. split. { rewrite K; cbn; auto. }
    eapply IH; eauto. intros y Iy. apply K. cbn. auto.
Qed.

(* ---------------- legal traces ---------------- *)
Definition legal (tr : list event) (ev : event) : Prop :=
  match ev with
  | EAdd i _ _ => ~ added i tr
  | EDestroy t i d k => (exists b o, batches t tr = (i :: b) :: o) /\ In (EAdd i d k) tr /\ ~ destroyed i tr
  | EBatchEnd t => exists o, batches t tr = [] :: o
  | _ => True
  end.
Fixpoint good (tr : list event) : Prop := match tr with [] => True | e :: t => legal t e /\ good t end.
Lemma good_suffix post tr : good (post ++ tr) -> good tr.
Proof. induction post; cbn; tauto. Qed.

Definition neutral (e : event) : bool :=
  match e with EAdd _ _ _ | EBatch _ | EDestroy _ _ _ _ | EBatchEnd _ => false | _ => true end.
Lemma neutral_all evs tr : forallb neutral evs = true ->
  waiting (evs ++ tr) = waiting tr /\ (forall t, batches t (evs ++ tr) = batches t tr) /\ (forall i, destroyed i (evs ++ tr) <-> destroyed i tr) /\
  (forall i d k, In (EAdd i d k) (evs ++ tr) <-> In (EAdd i d k) tr) /\ (good tr -> good (evs ++ tr)).
Proof.
  induction evs as [|e evs IH]; cbn [app forallb]. { intros _. repeat split; auto. }
  intros E. apply andb_prop in E. destruct E as (E & F). destruct (IH F) as (A & B & C & D & G).
  assert (X : forall i d k, e <> EAdd i d k) by (intros i d k ->; discriminate).
  assert (Y : forall t i d k, e <> EDestroy t i d k) by (intros t i d k ->; discriminate).
  split; [|split; [|split; [|split]]].
  - destruct e; try discriminate; exact A.
  - intros t. destruct e; try discriminate; exact (B t).
  - intros i. rewrite <- C. unfold destroyed. split; intros (t & d & k & I); exists t, d, k; cbn; auto. destruct I as [I|I]; auto. destruct (Y _ _ _ _ I).
  - intros i d k. rewrite <- D. cbn. split; auto. intros [I|I]; auto. destruct (X _ _ _ I).
  - intros Gt. cbn. split; auto. destruct e; try discriminate; exact I.
Qed.

Lemma destroyed_cons e i tr : destroyed i (e :: tr) <-> (exists t d k, e = EDestroy t i d k) \/ destroyed i tr.
Proof.
  unfold destroyed. cbn. split.
  - intros (t & d & k & [E|I]); [left|right]; eauto.
  - intros [(t & d & k & E)|(t & d & k & I)]; exists t, d, k; auto.
Qed.
Lemma added_cons e i tr : added i (e :: tr) <-> (exists d k, e = EAdd i d k) \/ added i tr.
Proof.
  unfold added. cbn. split.
  - intros (d & k & [E|I]); [left|right]; eauto.
  - intros [(d & k & E)|(d & k & I)]; exists d, k; auto.
Qed.
Lemma destroyed_added tr i : good tr -> destroyed i tr -> added i tr.
Proof.
  induction tr as [|e tr IH]; cbn [good]; [intros _ (t & d & k & [])|]. intros (Lg & G) H. apply added_cons. apply destroyed_cons in H.
  destruct H as [(t & d & k & ->)|H]; [|auto]. destruct Lg as (_ & I & _). right. exists d, k. auto.
Qed.
(* everything which has been added is waiting or being destroyed or has been destroyed *)
Lemma added_where tr i : good tr -> added i tr -> In i (waiting tr) \/ destroyed i tr \/ exists t b, In b (batches t tr) /\ In i b.
Proof.
  induction tr as [|e tr IH]; cbn [good]; [intros _ (d & k & [])|]. intros (Lg & G) H. apply added_cons in H. rewrite destroyed_cons.
  assert (K : In i (waiting tr) \/ destroyed i tr \/ (exists t b, In b (batches t tr) /\ In i b) \/ exists d k, e = EAdd i d k).
  { destruct H as [H|H]; auto. destruct (IH G H) as [X|[X|X]]; auto. }
  clear H IH. destruct e as [ | |j dt kd|u|u|u j dt kd|u|u|u w|u sid|u sid|sid|sid|sid| | | | | ]; cbn [waiting batches];
    try (destruct K as [K|[K|[K|(d0 & k0 & K)]]]; [solve [auto]|solve [auto]|solve [auto]|discriminate]).
  - rewrite in_app_iff. cbn. destruct K as [K|[K|[K|(d0 & k0 & K)]]]; auto. injection K as -> _ _. auto.
  - destruct K as [K|[K|[(t & b & I1 & I2)|(d0 & k0 & K)]]]; [| auto | |discriminate].
    + right. right. exists u, (waiting tr). rewrite Nat.eqb_refl. cbn. auto.
    + right. right. exists t, b. destruct (Nat.eqb_spec u t); cbn; auto.
  - destruct K as [K|[K|[(t & b & I1 & I2)|(d0 & k0 & K)]]]; [auto|auto| |discriminate].
    right. right. exists t, b. destruct (Nat.eqb_spec u t); [|auto]. subst u. destruct Lg as (o & E). rewrite E in *. cbn. destruct I1 as [<-|I1]; [destruct I2|auto].
  - destruct Lg as ((b0 & o & E) & _ & _). destruct K as [K|[K|[(t & b & I1 & I2)|(d0 & k0 & K)]]]; [auto|auto| |discriminate].
    destruct (Nat.eqb_spec u t) as [->|N].
    + rewrite E in I1. destruct I1 as [<-|I1].
      * destruct I2 as [->|I2]; [right; left; left; eauto|]. right. right. exists t, b0. rewrite Nat.eqb_refl, E. cbn. auto.
      * right. right. exists t, b. rewrite Nat.eqb_refl, E. cbn. auto.
    + right. right. exists t, b. destruct (Nat.eqb_spec u t); [contradiction|]. auto.
Qed.

(* ---------------- the invariant ---------------- *)
(* the items a function in progress has taken out of the pool *)
Definition fitems (h : heap) (tr : list event) (f : frame) (D : list nat) : Prop :=
  match f with
  | FLoop _ | FRemove _ _ | FRemoved _ | FOther _ => D = []
  | FBatch items item _ => exists D1 D2, D = D1 ++ D2 /\ lseg h (Some items) D /\ lseg h item D2 /\ forall x, In x D2 -> ~ destroyed x tr
  | FCb items a _ | FSelf items a _ =>
      exists D1 D2, D = D1 ++ a :: D2 /\ lseg h (Some items) D /\ lseg h (Some a) (a :: D2) /\ forall x, In x D2 -> ~ destroyed x tr
  end.
Definition isb (f : frame) : bool := match f with FBatch _ _ _ | FCb _ _ _ | FSelf _ _ _ => true | _ => false end.
(* what it is going to destroy *)
Definition bmatch (h : heap) (f : frame) (b : list nat) : Prop :=
  match f with
  | FBatch _ item _ => lseg h item b
  | FCb _ a _ | FSelf _ a _ => lseg h (Some a) (a :: b)
  | _ => False
  end.
Record INV (h : heap) (oq : option pool) (ks : list (list frame)) (tr : list event) (P : list (frame * list nat)) : Prop := {
  i_pool : match oq with Some q => lseg h (p_first q) (waiting tr) /\ p_last q = lasto (waiting tr) | None => True end;
  i_perm : Permutation (map fst P) (concat ks);
  i_items : Forall (fun p => fitems h tr (fst p) (snd p)) P;
  i_nodup : NoDup (waiting tr ++ concat (map snd P));
  i_alive : forall a, In a (waiting tr) -> alive h a /\ ~ destroyed a tr;
  i_entry : forall a it, nth_error h a = Some (Some it) -> In (EAdd a (it_data it) (it_kind it)) tr;
  i_lt : forall a, added a tr -> (a < length h)%nat;
  i_good : good tr;
  i_batch : forall t, Forall2 (bmatch h) (filter isb (nth t ks [])) (batches t tr);
  i_live : forall a, alive h a -> In a (waiting tr ++ concat (map snd P)) }.
Ltac open I := destruct I as [i_pool0 i_perm0 i_items0 i_nodup0 i_alive0 i_entry0 i_lt0 i_good0 i_batch0 i_live0].

(* one thread and the others *)
Lemma focus (ks : list (list frame)) t k : nth_error ks t = Some k -> exists R, forall k', Permutation (concat (upd ks t k')) (k' ++ R).
Proof.
  revert t. induction ks as [|x ks IH]; intros [|t] E; try discriminate; cbn in E.
  - injection E as ->. exists (concat ks). intros k'. reflexivity.
  - destruct (IH t E) as (R & H). exists (x ++ R). intros k'. cbn. rewrite H. apply Permutation_app_swap_app.
Qed.
Lemma upd_same {A} (l : list A) t k : nth_error l t = Some k -> upd l t k = l.
Proof. revert t. induction l as [|x l IH]; intros [|t] E; try discriminate; cbn in *; [congruence|]. f_equal. auto. Qed.
Lemma upd_upd {A} (l : list A) t x y : upd (upd l t x) t y = upd l t y.
Proof. revert t. induction l as [|z l IH]; intros [|t]; cbn; auto. f_equal. auto. Qed.
Lemma nth_upd {A} (l : list A) t x u d : (t < length l)%nat -> nth u (upd l t x) d = if Nat.eqb u t then x else nth u l d.
Proof. revert t u. induction l as [|z l IH]; intros [|t] [|u] H; cbn in *; try lia; auto. apply IH. lia. Qed.
Lemma nth_error_lt {A} (l : list A) t x : nth_error l t = Some x -> (t < length l)%nat.
Proof. intros E. apply nth_error_Some. congruence. Qed.
Lemma nth_of {A} (l : list A) t x d : nth_error l t = Some x -> nth t l d = x.
Proof. revert t. induction l as [|z l IH]; intros [|t] E; try discriminate; cbn in *; [congruence|auto]. Qed.

Lemma perm_pick (P : list (frame * list nat)) f R : Permutation (map fst P) (f :: R) ->
  exists D P', Permutation P ((f, D) :: P') /\ Permutation (map fst P') R.
Proof.
  intros H. assert (I : In f (map fst P)) by (rewrite H; cbn; auto). apply in_map_iff in I. destruct I as ((g & D) & E & I). cbn in E. subst g.
  apply in_split in I. destruct I as (A & B & ->). exists D, (A ++ B). split; [symmetry; apply Permutation_middle|].
  rewrite map_app in *. cbn in H. apply (Permutation_cons_inv (a := f)). rewrite <- H. apply Permutation_middle.
Qed.
Lemma perm_concat (P Q : list (frame * list nat)) : Permutation P Q -> Permutation (concat (map snd P)) (concat (map snd Q)).
Proof.
  induction 1; cbn; auto.
  - apply Permutation_app_head. auto.
  - rewrite !app_assoc. apply Permutation_app_tail. apply Permutation_app_comm.
  - etransitivity; eauto.
Qed.
Lemma INV_perm h oq ks tr P Q : Permutation P Q -> INV h oq ks tr P -> INV h oq ks tr Q.
Proof.
  intros H I. open I. constructor; auto.
  - rewrite <- i_perm0. apply Permutation_map. symmetry. auto.
  - rewrite Forall_forall in *. intros p Ip. apply i_items0. eapply Permutation_in; [symmetry|]; eauto.
  - eapply Permutation_NoDup; [|exact i_nodup0]. apply Permutation_app_head. apply perm_concat. auto.
  - intros a A. eapply Permutation_in; [|exact (i_live0 a A)]. apply Permutation_app_head. apply perm_concat. auto.
Qed.
(* the innermost function of thread t *)
Lemma INV_focus h oq ks tr P t f k : INV h oq ks tr P -> nth_error ks t = Some (f :: k) ->
  exists D P' R, INV h oq ks tr ((f, D) :: P') /\ (forall k', Permutation (concat (upd ks t k')) (k' ++ R)) /\ Permutation (map fst P') (k ++ R).
Proof.
  intros I E. destruct (focus _ _ _ E) as (R & HR). pose proof (HR (f :: k)) as H. rewrite (upd_same _ _ _ E) in H.
  pose proof (i_perm _ _ _ _ _ I) as Hp. rewrite H in Hp. destruct (perm_pick _ _ _ Hp) as (D & P' & H1 & H2).
  exists D, P', R. split; [eapply INV_perm; eauto|]. auto.
Qed.

(* neutral events *)
Lemma fitems_tr h h' tr tr' f D : same h h' D -> (forall x, In x D -> destroyed x tr' -> destroyed x tr) -> fitems h tr f D -> fitems h' tr' f D.
Proof.
  intros Hs Hd. destruct f; cbn; auto.
  - intros (D1 & D2 & -> & A & B & C). exists D1, D2. split; auto. split; [eapply lseg_same; eauto|]. split.
    + eapply lseg_same; [|exact B]. eapply same_incl; [|exact Hs]. intros x I. apply in_app_iff. auto.
    + intros x I X. apply (C x I). apply Hd; auto. apply in_app_iff. auto.
  - intros (D1 & D2 & -> & A & B & C). exists D1, D2. split; auto. split; [eapply lseg_same; eauto|]. split.
    + refine (lseg_same h h' (item :: D2) _ (Some item) B). eapply same_incl; [|exact Hs]. intros x I. apply in_app_iff. auto.
    + intros x I X. apply (C x I). apply Hd; auto. apply in_app_iff. cbn. auto.
  - intros (D1 & D2 & -> & A & B & C). exists D1, D2. split; auto. split; [eapply lseg_same; eauto|]. split.
    + refine (lseg_same h h' (item :: D2) _ (Some item) B). eapply same_incl; [|exact Hs]. intros x I. apply in_app_iff. auto.
    + intros x I X. apply (C x I). apply Hd; auto. apply in_app_iff. cbn. auto.
Qed.
Lemma fitems_alive h tr f D a : fitems h tr f D -> In a D -> alive h a.
Proof.
  destruct f; cbn; try (intros -> []); intros (D1 & D2 & -> & A & _); eapply lseg_alive; eauto.
Qed.
Lemma bmatch_same h h' tr f D b : fitems h tr f D -> same h h' D -> bmatch h f b -> bmatch h' f b.
Proof.
  destruct f; cbn; auto.
  - intros (D1 & D2 & -> & A & B & C) Hs M. assert (b = D2) as -> by (eapply lseg_det; eauto). eapply lseg_same; [|exact B].
    eapply same_incl; [|exact Hs]. intros x I. apply in_app_iff. auto.
  - intros (D1 & D2 & -> & A & B & C) Hs M. assert (E : item :: b = item :: D2). { exact (lseg_det h (item :: b) (Some item) (item :: D2) M B). } injection E as ->. refine (lseg_same h h' (item :: D2) _ (Some item) B).
    eapply same_incl; [|exact Hs]. intros x I. apply in_app_iff. auto.
  - intros (D1 & D2 & -> & A & B & C) Hs M. assert (E : item :: b = item :: D2). { exact (lseg_det h (item :: b) (Some item) (item :: D2) M B). } injection E as ->. refine (lseg_same h h' (item :: D2) _ (Some item) B).
    eapply same_incl; [|exact Hs]. intros x I. apply in_app_iff. auto.
Qed.
(* the functions of all threads keep their batches when the heap changes elsewhere *)
Lemma batch_same h h' tr P ks : Permutation (map fst P) (concat ks) -> Forall (fun p => fitems h tr (fst p) (snd p)) P -> same h h' (concat (map snd P)) ->
  forall t bs, Forall2 (bmatch h) (filter isb (nth t ks [])) bs -> Forall2 (bmatch h') (filter isb (nth t ks [])) bs.
Proof.
  intros Hp Hi Hs t bs.
  assert (K : forall f b, In f (nth t ks []) -> bmatch h f b -> bmatch h' f b).
  { intros f b I M. assert (If : In f (map fst P)).
    { rewrite Hp. apply in_concat. exists (nth t ks []). split; auto. destruct (nth_in_or_default t ks []) as [|E]; auto. rewrite E in I. destruct I. }
    apply in_map_iff in If. destruct If as ((g & D) & E & Ip). cbn in E. subst g. rewrite Forall_forall in Hi. specialize (Hi _ Ip). cbn in Hi.
    eapply bmatch_same; eauto. eapply same_incl; [|exact Hs]. intros x Ix. apply in_concat. exists D. split; auto. apply in_map_iff. exists (f, D). auto. }
  revert bs. induction (nth t ks []) as [|f l IH]; cbn; intros bs F. { inversion F. constructor. } destruct (isb f).
  - inversion F; subst. constructor; [apply K; cbn; auto|]. apply IH; auto. intros g b I. apply K. cbn. auto.
  - apply IH; auto. intros g b I. apply K. cbn. auto.
Qed.

Definition peq (oq oq' : option pool) : Prop :=
  match oq, oq' with
  | Some q, Some q' => p_first q' = p_first q /\ p_last q' = p_last q
  | None, Some _ => False
  | _, None => True
  end.
Definition plain (f : frame) : bool := negb (isb f).
Lemma plain_items f : plain f = true -> forall h tr, fitems h tr f []. Proof. destruct f; try discriminate; reflexivity. Qed.

(* functions which have not taken any items come and go *)
Lemma INV_neutral h oq oq' ks tr t fs fs' k P evs : INV h oq ks tr P -> nth_error ks t = Some (fs ++ k) -> (length fs <= 1)%nat ->
  forallb plain fs = true -> forallb plain fs' = true -> forallb neutral evs = true -> peq oq oq' ->
  exists P', INV h oq' (upd ks t (fs' ++ k)) (evs ++ tr) P'.
Proof.
  intros I E Ln Pf Pf' Ne Pq. destruct (neutral_all evs tr Ne) as (W & B & Ds & Ad & G).
  assert (X : exists P' R, INV h oq ks tr (map (fun f => (f, [])) fs ++ P') /\ (forall k', Permutation (concat (upd ks t k')) (k' ++ R)) /\ Permutation (map fst P') (k ++ R)).
  { destruct fs as [|f [|]]; cbn in Ln; [| |lia].
    - destruct (focus _ _ _ E) as (R & HR). exists P, R. split; auto. split; auto. rewrite <- (upd_same _ _ _ E) in I. pose proof (i_perm _ _ _ _ _ I) as X. rewrite HR in X. exact X.
    - destruct (INV_focus _ _ _ _ _ _ _ _ I E) as (D & P' & R & I' & H1 & H2). exists P', R. split; auto.
      pose proof (i_items _ _ _ _ _ I') as F. inversion F as [|x l Fx Fl]. cbn in Fx. assert (D = []) as ->; auto. cbn in Pf. destruct f; try discriminate; exact Fx. }
  destruct X as (P' & R & I' & HR & HP). exists (map (fun f => (f, [])) fs' ++ P'). open I'.
  assert (Nil : forall l : list frame, concat (map snd (map (fun f => (f, @nil nat)) l)) = []). { intros l. induction l; cbn; auto. }
  assert (Nf : forall l : list frame, map fst (map (fun f => (f, @nil nat)) l) = l). { intros l. induction l as [|x l IH]; cbn; congruence. }
  rewrite map_app, concat_app, Nil in *. cbn [app] in *.
  constructor; try (rewrite map_app, concat_app, Nil); cbn [app]; try rewrite W; auto.
  - destruct oq as [q|], oq' as [q'|]; cbn in Pq; auto; [|destruct Pq]. destruct Pq as (-> & ->). auto.
  - rewrite map_app, Nf, HR, HP. rewrite app_assoc. reflexivity.
  - apply Forall_app in i_items0. destruct i_items0 as (F1 & F2). apply Forall_app. split.
    + rewrite Forall_forall. intros p Ip. apply in_map_iff in Ip. destruct Ip as (f & <- & If). apply plain_items. rewrite forallb_forall in Pf'. auto.
    + eapply Forall_impl; [|exact F2]. intros p. apply fitems_tr. { intros x _. reflexivity. } intros x _. apply Ds.
  - intros a Ia. rewrite Ds. auto.
  - intros a it N. rewrite Ad. auto.
  - intros a (d & kk & A). rewrite Ad in A. apply i_lt0. exists d, kk. auto.
  - intros u. rewrite B, nth_upd by (eapply nth_error_lt; eauto). specialize (i_batch0 u). destruct (Nat.eqb_spec u t) as [->|]; auto.
    rewrite (nth_of _ _ _ [] E) in i_batch0.
    assert (Z : forall l, forallb plain l = true -> filter isb (l ++ k) = filter isb k).
    { induction l as [|x l IH]; cbn; auto. intros H. apply andb_prop in H. destruct H as (A1 & A2). unfold plain in A1. destruct (isb x); [discriminate|auto]. }
    rewrite Z in * by auto. auto.
Qed.
