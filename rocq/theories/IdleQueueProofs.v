(* Proofs about the idle queue: an invariant of all executions *)
From Verif Require Import Base IdleQueueModel IdleQueueSpec.
From Coq Require Import Permutation.

(* ---------------- lists in the heap ---------------- *)
Fixpoint lseg (h : heap) (p : option nat) (l : list nat) : Prop :=
  match l with
  | [] => p = None
  | a :: l => p = Some a /\ exists it, nth_error h a = Some (Some it) /\ lseg h (it_next it) l
  end.
Fixpoint lasto (l : list nat) : option nat := match l with [] => None | [a] => Some a | _ :: t => lasto t end.
Definition entry_of (a : nat) (it : item) : entry := Entry a (it_tag it) (it_data it) (it_run it) (it_destroy it).
Definition is_entry (h : heap) (a : nat) (e : entry) : Prop := exists it, nth_error h a = Some (Some it) /\ e = entry_of a it.
Definition alive (h : heap) (a : nat) : Prop := exists it, nth_error h a = Some (Some it).
Definition flag (h : heap) (b : bool) (a : nat) : Prop := exists it, nth_error h a = Some (Some it) /\ it_completed it = b.

(* the items of l keep their contents except for the mark *)
Definition keeps (h h' : heap) (l : list nat) : Prop :=
  forall a it, In a l -> nth_error h a = Some (Some it) ->
    exists it', nth_error h' a = Some (Some it') /\ it_next it' = it_next it /\ entry_of a it' = entry_of a it.
(* and the mark as well *)
Definition same (h h' : heap) (l : list nat) : Prop := forall a, In a l -> nth_error h' a = nth_error h a.

Lemma same_keeps h h' l : same h h' l -> keeps h h' l.
Proof. intros H a it I E. exists it. rewrite (H a I). auto. Qed.
Lemma keeps_incl h h' l l' : incl l' l -> keeps h h' l -> keeps h h' l'.
Proof. intros I K a it Ia. apply K. auto. Qed.
Lemma same_incl h h' l l' : incl l' l -> same h h' l -> same h h' l'.
Proof. intros I K a Ia. apply K. auto. Qed.
Lemma same_upd h a x l : ~ In a l -> same h (upd h a x) l.
Proof. intros N b Ib. apply nth_error_upd_ne. intros ->. contradiction. Qed.
Lemma same_app h x l : (forall a, In a l -> alive h a) -> same h (h ++ x) l.
Proof. intros A a I. destruct (A a I) as (it & E). apply nth_error_app1. apply nth_error_Some. congruence. Qed.
Lemma same_trans h h' h'' l : same h h' l -> same h' h'' l -> same h h'' l.
Proof. intros A B a I. rewrite (B a I). apply A. auto. Qed.

Lemma lseg_keeps h h' l : keeps h h' l -> forall p, lseg h p l -> lseg h' p l.
Proof.
  induction l as [|a l IH]; intros K p; cbn; auto. intros (E & it & N & R). split; auto.
  destruct (K a it (or_introl eq_refl) N) as (it' & N' & E' & _). exists it'. split; auto. rewrite E'. apply IH; auto.
  eapply keeps_incl; [|exact K]. intros x; cbn; auto.
Qed.
Lemma lseg_same h h' l : same h h' l -> forall p, lseg h p l -> lseg h' p l.
Proof. intros K. apply lseg_keeps, same_keeps, K. Qed.
Lemma lseg_alive h l : forall p, lseg h p l -> forall a, In a l -> alive h a.
Proof. induction l as [|x l IH]; intros p; cbn; [tauto|]. intros (E & it & N & R) a [->|I]; [exists it; auto|eapply IH; eauto]. Qed.
Lemma lseg_hd h p l : lseg h p l -> p = hd_error l.
Proof. destruct l; cbn; tauto. Qed.
Lemma lseg_app h l l' : forall p, lseg h p (l ++ l') -> exists q, lseg h q l'.
Proof. induction l as [|a l IH]; cbn; eauto. intros p (_ & it & _ & R). eauto. Qed.
Lemma entry_keeps h h' a e : keeps h h' [a] -> is_entry h a e -> is_entry h' a e.
Proof. intros K (it & N & ->). destruct (K a it (or_introl eq_refl) N) as (it' & N' & _ & E). exists it'. auto. Qed.
Lemma entries_keeps h h' l : keeps h h' l -> forall es, Forall2 (is_entry h) l es -> Forall2 (is_entry h') l es.
Proof.
  induction l as [|a l IH]; intros K es F; inversion F; subst; constructor.
  - eapply entry_keeps; [|eassumption]. eapply keeps_incl; [|exact K]. intros x [->|[]]; cbn; auto.
  - apply IH; auto. eapply keeps_incl; [|exact K]. intros x; cbn; auto.
Qed.
Lemma flag_same h h' b l : same h h' l -> Forall (flag h b) l -> Forall (flag h' b) l.
Proof. intros K F. rewrite Forall_forall in *. intros a I. destruct (F a I) as (it & N & E). exists it. rewrite (K a I). auto. Qed.
Lemma alive_lt h a : alive h a -> (a < length h)%nat.
Proof. intros (it & E). apply nth_error_Some. congruence. Qed.

Lemma get_ok h a it : nth_error h a = Some (Some it) -> get h a = Ok it.
Proof. unfold get. intros ->. reflexivity. Qed.
Lemma put_ok h a it x : nth_error h a = Some (Some it) -> put h a x = Ok (upd h a (Some x)).
Proof. intros E. unfold put. rewrite (get_ok _ _ _ E). reflexivity. Qed.
Lemma release_ok h a it : nth_error h a = Some (Some it) -> release h a = Ok (upd h a None).
Proof. intros E. unfold release. rewrite (get_ok _ _ _ E). reflexivity. Qed.
Lemma upd_here h a (it : option item) x : nth_error h a = Some it -> nth_error (upd h a x) a = Some x.
Proof. intros E. apply nth_error_upd_eq. apply nth_error_Some. congruence. Qed.

Lemma nodup_bound (l : list nat) n : NoDup l -> (forall a, In a l -> (a < n)%nat) -> (length l <= n)%nat.
Proof.
  intros D B. rewrite <- (seq_length n 0). apply NoDup_incl_length; auto. intros a I. apply in_seq. specialize (B a I). lia.
Qed.

(* marking *)
Lemma mark_ok l : forall fuel h p, lseg h p l -> NoDup l -> (length l <= fuel)%nat ->
  exists h', mark fuel h p = Ok h' /\ length h' = length h /\ (forall a, ~ In a l -> nth_error h' a = nth_error h a) /\
    (forall a it, In a l -> nth_error h a = Some (Some it) -> nth_error h' a = Some (Some (set_completed it))).
Proof.
  induction l as [|a l IH]; intros fuel h p R D B; cbn in R.
  - subst. exists h. destruct fuel; cbn; repeat split; auto; intros; contradiction.
  - destruct R as (-> & it & N & R). inversion D as [|? ? NI D']; subst. destruct fuel as [|fuel]; [cbn in B; lia|].
    cbn [mark]. rewrite (get_ok _ _ _ N). cbn [bind]. rewrite (put_ok _ _ _ _ N). cbn [bind].
    destruct (IH fuel (upd h a (Some (set_completed it))) (it_next it)) as (h' & E & Ln & O & I); auto.
    { eapply lseg_same; [|exact R]. apply same_upd. auto. }
    { cbn in B. lia. }
    exists h'. split; [exact E|]. split; [rewrite Ln; apply upd_length|]. split.
    + intros x Nx. rewrite O by (cbn in Nx; tauto). apply nth_error_upd_ne. cbn in Nx. intros ->. tauto.
    + intros x ix [->|Ix] Nx.
      * rewrite O by auto. rewrite (upd_here _ _ _ _ N). congruence.
      * apply I; auto. rewrite nth_error_upd_ne; auto. intros ->. contradiction.
Qed.

(* freeing a chain *)
Lemma chain_ok l : forall fuel h p, lseg h p l -> NoDup l -> (length l <= fuel)%nat ->
  exists h', free_chain fuel h p = Ok h' /\ length h' = length h /\ (forall a, ~ In a l -> nth_error h' a = nth_error h a) /\
    (forall a, In a l -> nth_error h' a = Some None).
Proof.
  induction l as [|a l IH]; intros fuel h p R D B; cbn in R.
  - subst. exists h. destruct fuel; cbn; repeat split; auto; intros; contradiction.
  - destruct R as (-> & it & N & R). inversion D as [|? ? NI D']; subst. destruct fuel as [|fuel]; [cbn in B; lia|].
    cbn [free_chain]. rewrite (get_ok _ _ _ N). cbn [bind]. rewrite (release_ok _ _ _ N). cbn [bind].
    destruct (IH fuel (upd h a None) (it_next it)) as (h' & E & Ln & O & I); auto.
    { eapply lseg_same; [|exact R]. apply same_upd. auto. }
    { cbn in B. lia. }
    exists h'. split; [exact E|]. split; [rewrite Ln; apply upd_length|]. split.
    + intros x Nx. rewrite O by (cbn in Nx; tauto). apply nth_error_upd_ne. cbn in Nx. intros ->. tauto.
    + intros x [->|Ix]; auto. rewrite O by auto. eapply upd_here; eauto.
Qed.

(* looking for a tag *)
Lemma has_tag_ok tag l : forall fuel h p es, lseg h p l -> Forall2 (is_entry h) l es -> (length l <= fuel)%nat ->
  exists b, has_tag fuel h p tag = Ok b /\ (b = true <-> exists e, In e es /\ e_tag e = tag).
Proof.
  induction l as [|a l IH]; intros fuel h p es R F B; cbn in R; inversion F as [|? e ? es' Ie F']; subst.
  - exists false. destruct fuel; cbn; split; auto; split; try discriminate; intros (? & [] & _).
  - destruct R as (-> & it & N & R). destruct fuel as [|fuel]; [cbn in B; lia|]. cbn [has_tag]. rewrite (get_ok _ _ _ N). cbn [bind].
    destruct Ie as (it' & N' & ->). rewrite N in N'. injection N' as <-. destruct (Z.eqb_spec (it_tag it) tag) as [E|E].
    + exists true. split; auto. split; auto. intros _. exists (entry_of a it). cbn. auto.
    + destruct (IH fuel h (it_next it) es' R F' ltac:(cbn in B; lia)) as (b & Eb & Hb). exists b. split; auto. rewrite Hb. split.
      * intros (e & I & T). exists e. cbn. auto.
      * intros (e & [<-|I] & T); [cbn in T; congruence|]. exists e. auto.
Qed.

Lemma find_tag_ok tag l : forall fuel h prev p es, lseg h p l -> Forall2 (is_entry h) l es -> (length l <= fuel)%nat ->
  (find_tag fuel h prev p tag = Ok None /\ (forall e, In e es -> e_tag e <> tag)) \/
  (exists pr b l1 l2 es1 eb es2, find_tag fuel h prev p tag = Ok (Some (pr, b)) /\ l = l1 ++ b :: l2 /\ es = es1 ++ eb :: es2 /\
     length l1 = length es1 /\ e_id eb = b /\ e_tag eb = tag /\ (forall e, In e es1 -> e_tag e <> tag) /\
     exists l0, prev :: l1 = l0 ++ [pr]).
Proof.
  induction l as [|a l IH]; intros fuel h prev p es R F B; cbn in R; inversion F as [|? e ? es' Ie F']; subst.
  - left. destruct fuel; cbn; auto.
  - destruct R as (-> & it & N & R). destruct fuel as [|fuel]; [cbn in B; lia|]. cbn [find_tag]. rewrite (get_ok _ _ _ N). cbn [bind].
    destruct Ie as (it' & N' & ->). rewrite N in N'. injection N' as <-. destruct (Z.eqb_spec (it_tag it) tag) as [E|E].
    + right. exists prev, a, [], l, [], (entry_of a it), es'. split; [reflexivity|]. repeat split; auto; try (intros e []). exists []. reflexivity.
    + destruct (IH fuel h a (it_next it) es' R F' ltac:(cbn in B; lia)) as [(Eb & Hb)|(pr & b & l1 & l2 & es1 & eb & es2 & Ef & El & Ees & Ln & Ei & Et & Nt & l0 & Ep)].
      * left. split; auto. intros e [<-|I]; auto.
      * right. exists pr, b, (a :: l1), l2, (entry_of a it :: es1), eb, es2. subst. split; auto. repeat split; cbn; auto.
        { intros e [<-|I]; auto. }
        exists (prev :: l0). cbn. rewrite Ep. reflexivity.
Qed.

(* ---------------- legal traces ---------------- *)
Definition legal (tr : list event) (ev : event) : Prop :=
  match ev with
  | EAdd e => forall e', In (EAdd e') tr -> e_id e' <> e_id e
  | ETake i => exists e r sid b o, pending tr = e :: r /\ e_id e = i /\ active tr = OPass sid b :: o /\ In e b
  | ECancel i =>
      (exists tag o l e r, active tr = OTag tag false :: o /\ pending tr = l ++ e :: r /\ e_id e = i /\ e_tag e = tag /\
         (forall x, In x l -> e_tag x <> tag)) \/
      (exists e r b o, pending tr = e :: r /\ e_id e = i /\ active tr = OAll b :: o /\ In e b)
  | ERun i d => exists t e, tr = ETake i :: t /\ In (EAdd e) tr /\ e_id e = i /\ e_data e = d /\ e_run e = true
  | EDestroy i d => exists e, In (EAdd e) tr /\ e_id e = i /\ e_data e = d /\ e_destroy e = true /\ ~ has_destroyed i tr /\
      ((exists t, tr = ECancel i :: t) \/ (In (ETake i) tr /\ (e_run e = true -> In (ERun i d) tr)))
  | EContains tag b => b = true <-> exists e, In e (pending tr) /\ e_tag e = tag
  | ETagEnd tag b => (exists o, active tr = OTag tag b :: o) /\ (b = false -> forall e, In e (pending tr) -> e_tag e <> tag)
  | EPass sid => In sid (sources tr)
  | EPassEnd sid again => exists b o, active tr = OPass sid b :: o /\ (again = true <-> pending tr <> []) /\
      (forall e, In e b -> ~ In e (pending tr))
  | EAllEnd => exists b o, active tr = OAll b :: o /\ (forall e, In e b -> ~ In e (pending tr))
  | ESource sid => sources tr = []
  | EUnsource sid => In sid (sources tr)
  | EBadUnsource _ => False
  | _ => True
  end.
Fixpoint good (tr : list event) : Prop := match tr with [] => True | e :: t => legal t e /\ good t end.

Definition not_id (i : nat) (e : entry) : bool := negb (Nat.eqb (e_id e) i).
Lemma good_suffix post tr : good (post ++ tr) -> good tr.
Proof. induction post; cbn; tauto. Qed.
Lemma good_split post e tr : good (post ++ e :: tr) -> legal tr e /\ good tr.
Proof. intros G. apply good_suffix in G. exact G. Qed.

(* what was added *)
Lemma pending_added tr e : In e (pending tr) -> In (EAdd e) tr.
Proof.
  induction tr as [|ev tr IH]; cbn; auto. destruct ev; auto; try (intros I; right; apply IH; exact I).
  - rewrite in_app_iff. cbn. intros [I|[->|[]]]; auto.
  - intros I. apply filter_In in I. tauto.
  - intros I. apply filter_In in I. tauto.
Qed.
Lemma added_unique tr e e' : good tr -> In (EAdd e) tr -> In (EAdd e') tr -> e_id e = e_id e' -> e = e'.
Proof.
  induction tr as [|ev tr IH]; cbn; [tauto|]. intros (Lg & G) [->|I] [E|I'] Ei.
  - congruence.
  - cbn in Lg. exfalso. apply (Lg e' I'). auto.
  - subst. cbn in Lg. exfalso. apply (Lg e I). auto.
  - auto.
Qed.
Lemma pending_nodup tr : good tr -> NoDup (map e_id (pending tr)).
Proof.
  induction tr as [|ev tr IH]; cbn; [constructor|]. intros (Lg & G). specialize (IH G).
  assert (Fl : forall f, NoDup (map e_id (filter f (pending tr)))).
  { intros f. clear - IH. induction (pending tr) as [|e l IHl]; cbn; auto. inversion IH; subst. destruct (f e); cbn; auto. constructor; auto.
    intros I. apply in_map_iff in I. destruct I as (x & Ex & Ix). apply filter_In in Ix. apply H1. rewrite <- Ex. apply in_map. tauto. }
  destruct ev; auto. cbn in Lg. rewrite map_app. cbn. apply (Permutation_NoDup (l := e_id e :: map e_id (pending tr))).
  - apply Permutation_cons_append.
  - constructor; auto. intros I. apply in_map_iff in I. destruct I as (x & Ex & Ix). apply (Lg x); auto. apply pending_added. auto.
Qed.
(* an item which is pending has not been touched, and one that has been added is pending or has left the queue *)
Lemma pending_split tr e : good tr -> In (EAdd e) tr -> In e (pending tr) \/ In (ETake (e_id e)) tr \/ In (ECancel (e_id e)) tr.
Proof.
  induction tr as [|ev tr IH]; cbn; [tauto|]. intros (Lg & G) I.
  assert (Fl : forall i, In e (pending tr) -> In e (filter (fun e => negb (Nat.eqb (e_id e) i)) (pending tr)) \/ e_id e = i).
  { intros i Ip. destruct (Nat.eqb_spec (e_id e) i) as [Ei|Ei]; auto. left. apply filter_In. split; auto. destruct (Nat.eqb_spec (e_id e) i); auto. }
  destruct I as [->|I].
  - left. apply in_app_iff. right. cbn. auto.
  - specialize (IH G I). destruct IH as [Ip|[It|Ic]]; auto. destruct ev; auto; try (left; exact Ip).
    + left. apply in_app_iff. auto.
    + destruct (Fl i Ip); subst; auto.
    + destruct (Fl i Ip); subst; auto.
Qed.
Lemma head_in {A} (x : A) l r : l = x :: r -> In x l. Proof. intros ->. cbn. auto. Qed.
Lemma mid_in {A} (x : A) l l1 r : l = l1 ++ x :: r -> In x l. Proof. intros ->. apply in_app_iff. cbn. auto. Qed.

(* an item that has left was pending before *)
Lemma left_added tr i : good tr -> In (ETake i) tr \/ In (ECancel i) tr -> exists e, In (EAdd e) tr /\ e_id e = i.
Proof.
  induction tr as [|ev tr IH]; cbn; [tauto|]. intros (Lg & G) [[->|I]|[->|I]].
  - cbn in Lg. destruct Lg as (e & r & sid & b & o & Ep & Ei & _). exists e. split; auto. right. apply pending_added. eapply head_in; eauto.
  - destruct (IH G (or_introl I)) as (e & Ie & Ei). eauto.
  - cbn in Lg. destruct Lg as [(tag & o & l & e & r & _ & Ep & Ei & _)|(e & r & b & o & Ep & Ei & _)]; exists e; split; auto; right; apply pending_added;
      [eapply mid_in; eauto|eapply head_in; eauto].
  - destruct (IH G (or_intror I)) as (e & Ie & Ei). eauto.
Qed.
Lemma pending_clean tr e : good tr -> In e (pending tr) -> ~ In (ETake (e_id e)) tr /\ ~ In (ECancel (e_id e)) tr.
Proof.
  induction tr as [|ev tr IH]; cbn; [tauto|]. intros (Lg & G) I.
  destruct ev; try (destruct (IH G I); split; intros [X|X]; [discriminate|contradiction|discriminate|contradiction]).
  - apply in_app_iff in I. destruct I as [I|[->|[]]].
    + destruct (IH G I). split; intros [X|X]; try discriminate; contradiction.
    + cbn in Lg. split; intros [X|X]; try discriminate; destruct (left_added tr (e_id e) G ltac:(auto)) as (e' & Ie & Ei); apply (Lg e' Ie); auto.
  - apply filter_In in I. destruct I as (I & N). destruct (IH G I). destruct (Nat.eqb_spec (e_id e) i); [discriminate|].
    split; intros [X|X]; try contradiction; congruence.
  - apply filter_In in I. destruct I as (I & N). destruct (IH G I). destruct (Nat.eqb_spec (e_id e) i); [discriminate|].
    split; intros [X|X]; try contradiction; congruence.
Qed.
(* an item leaves the queue only once *)
Lemma left_once tr ev i : good (ev :: tr) -> ev = ETake i \/ ev = ECancel i -> ~ In (ETake i) tr /\ ~ In (ECancel i) tr.
Proof.
  intros (Lg & G) [-> | ->]; cbn in Lg.
  - destruct Lg as (e & r & sid & b & o & Ep & <- & _). apply pending_clean; auto. eapply head_in; eauto.
  - destruct Lg as [(tag & o & l & e & r & _ & Ep & <- & _)|(e & r & b & o & Ep & <- & _)]; apply pending_clean; auto;
      [eapply mid_in; eauto|eapply head_in; eauto].
Qed.
Lemma left_one tr i : good tr -> In (ETake i) tr -> In (ECancel i) tr -> False.
Proof.
  induction tr as [|ev tr IH]; cbn; [tauto|]. intros G I1 I2. pose proof (proj2 G). destruct (left_once tr ev i) as (A & B); auto.
  - destruct I1 as [->|I1]; auto. destruct I2 as [->|I2]; auto. exfalso. auto.
  - destruct I1 as [->|I1]; [|contradiction]. destruct I2 as [E|I2]; [discriminate|contradiction].
Qed.
Lemma run_taken tr i d : good tr -> In (ERun i d) tr -> In (ETake i) tr.
Proof.
  induction tr as [|ev tr IH]; cbn; [tauto|]. intros (Lg & G) [->|I]; auto. cbn in Lg. destruct Lg as (t & e & -> & _). right. cbn. auto.
Qed.
Lemma destroyed_left tr i d : good tr -> In (EDestroy i d) tr -> In (ETake i) tr \/ In (ECancel i) tr.
Proof.
  induction tr as [|ev tr IH]; cbn; [tauto|]. intros (Lg & G) [->|I]; [|destruct (IH G I); auto].
  cbn in Lg. destruct Lg as (e & _ & _ & _ & _ & _ & [(t & ->)|(It & _)]); cbn; auto.
Qed.
Lemma run_data tr i d : good tr -> In (ERun i d) tr -> exists e, In (EAdd e) tr /\ e_id e = i /\ e_data e = d /\ e_run e = true.
Proof.
  induction tr as [|ev tr IH]; cbn; [tauto|]. intros (Lg & G) [->|I].
  - cbn in Lg. destruct Lg as (t & e & _ & Ie & E). exists e. auto.
  - destruct (IH G I) as (e & Ie & E). exists e. auto.
Qed.
Lemma destroy_data tr i d : good tr -> In (EDestroy i d) tr -> exists e, In (EAdd e) tr /\ e_id e = i /\ e_data e = d /\ e_destroy e = true.
Proof.
  induction tr as [|ev tr IH]; cbn; [tauto|]. intros (Lg & G) [->|I].
  - cbn in Lg. destruct Lg as (e & Ie & E1 & E2 & E3 & _). exists e. auto.
  - destruct (IH G I) as (e & Ie & E). exists e. auto.
Qed.
