(* The invariant holds in every execution of the idle pool *)
From Verif Require Import Base IdlePoolModel IdlePoolSpec IdlePoolProofs IdlePoolInv.
From Coq Require Import Permutation.

Definition inv (s : state) : Prop := exists P, INV (s_heap s) (s_pool s) (s_stacks s) (s_trace s) P.
Definition uaf (f : fault) : Prop := f = UseAfterFree \/ f = DoubleFree.
Definition fine (oq : option pool) (r : res state) : Prop := (exists s', r = Ok s' /\ inv s') \/ (exists f, r = Fail f /\ uaf f /\ oq = None).
Ltac flat := cbn [bind the_pool s_heap s_pool s_var s_srcs s_next s_stacks s_trace set_heap set_pool set_var set_srcs set_stack emit].

Lemma fine_ok oq s : inv s -> fine oq (Ok s). Proof. intros I. left. eauto. Qed.
Lemma fine_uaf f : uaf f -> fine None (Fail f). Proof. intros U. right. eauto. Qed.
Lemma uaf1 : uaf UseAfterFree. Proof. left. auto. Qed.
Lemma uaf2 : uaf DoubleFree. Proof. right. auto. Qed.
#[global] Hint Resolve uaf1 uaf2 fine_uaf : core.

(* the new state is described by its parts *)
Lemma parts_inv h oq v srcs n ks tr : (exists P, INV h oq ks tr P) -> inv (State h oq v srcs n ks tr).
Proof. intros H. exact H. Qed.
Lemma peq_refs q r : peq (Some q) (Some (set_refs q r)). Proof. cbn. auto. Qed.
Lemma peq_idle q r : peq (Some q) (Some (set_idle q r)). Proof. cbn. auto. Qed.
Lemma peq_refl oq : peq oq oq. Proof. destruct oq; cbn; auto. Qed.
Lemma peq_none oq : peq oq None. Proof. destruct oq; cbn; auto. Qed.
#[global] Hint Resolve peq_refs peq_idle peq_refl peq_none : core.

Lemma drop_fine h oq v srcs n ks tr t fs fs' k : (exists P, INV h oq ks tr P) -> nth_error ks t = Some (fs ++ k) -> (length fs <= 1)%nat -> forallb plain fs = true ->
  forallb plain fs' = true -> forall evs, forallb neutral evs = true -> fine oq (drop (State h oq v srcs n ks (evs ++ tr)) t (fs' ++ k)).
Proof.
  intros (P & I) E Ln Pf Pf' evs Ne. unfold drop. flat. destruct oq as [q|]; flat; auto.
  destruct (p_refs q - 1 =? 0); [|apply fine_ok; flat; apply parts_inv; eapply INV_neutral; eauto; cbn; auto].
  apply fine_ok. destruct (p_shared q); flat; apply parts_inv; apply (INV_neutral h (Some q) (Some (set_refs q (p_refs q - 1))) ks tr t fs (FLoop WFinal :: fs') k P (EZero :: evs)); auto; first [exact Pf'|exact Ne].
Qed.
Lemma end_fine h oq v srcs n ks tr t f w k : (exists P, INV h oq ks tr P) -> nth_error ks t = Some (f :: k) -> plain f = true -> fine oq (drain_end (State h oq v srcs n ks tr) t w k).
Proof.
  intros I E Pf. assert (Pf' : forallb plain [f] = true) by (cbn; rewrite Pf; auto). unfold drain_end. destruct w; flat.
  - apply fine_ok. apply parts_inv. destruct I as (P & I). eapply (INV_neutral h oq oq ks tr t [f] [] k P [EDrained t WClient]); eauto.
  - exact (drop_fine h oq v srcs n ks tr t [f] [] k I E ltac:(cbn; lia) Pf' eq_refl [EDrained t WDestroy] eq_refl).
  - unfold idle_end. flat. exact (drop_fine h oq v (without srcs sid) n ks tr t [f] [] k I E ltac:(cbn; lia) Pf' eq_refl [EIdleEnd t sid; EDrained t (WIdle sid)] eq_refl).
  - destruct oq as [q|]; flat; auto. apply fine_ok. apply parts_inv. destruct I as (P & I). eapply (INV_neutral h (Some q) None ks tr t [f] [] k P [EGone; EDrained t WFinal]); eauto.
Qed.
Lemma next_fine h oq v srcs n ks tr t items a w k f evs : (exists P, INV h oq ks tr P) -> nth_error ks t = Some (f :: k) -> f = FCb items a w \/ f = FSelf items a w ->
  forallb neutral evs = true -> fine oq (next_item (State h oq v srcs n ks (evs ++ tr)) t items a w k).
Proof.
  intros (P & I) E Hf Ne. destruct (INV_next _ _ _ _ _ _ _ _ _ _ _ I E Hf) as (it & N & P1 & I1). unfold next_item. flat. rewrite (get_ok _ _ _ N). flat. apply fine_ok. apply parts_inv.
  assert (Z : nth_error (upd ks t (FBatch items (it_next it) w :: k)) t = Some ([] ++ FBatch items (it_next it) w :: k)) by (eapply upd_here; eauto).
  destruct (INV_neutral h oq oq _ tr t [] [] _ P1 evs I1 Z) as (P2 & I2); auto. exists P2. rewrite upd_upd in I2. exact I2.
Qed.

Lemma step_fine s x : inv s -> fine (s_pool s) (step s x).
Proof.
  destruct x as (t & a). destruct s as [h oq v srcs n ks tr]. intros I. unfold inv in I. cbn in I. assert (Iv : inv (State h oq v srcs n ks tr)) by exact I.
  unfold step. flat. destruct (nth_error ks t) as [k0|] eqn:E; [|apply fine_ok; auto].
  assert (Same : fine oq (Ok (State h oq v srcs n ks tr))) by (apply fine_ok; auto).
  assert (Client : forall k, k0 = k -> (forall c, fine oq (do_call (State h oq v srcs n ks tr) t c k)) /\ (forall sid, fine oq (dispatch (State h oq v srcs n ks tr) t sid k))).
  { intros k <-. split.
    - intros c. destruct c as [data| | | | ]; cbn [do_call].
      + unfold add. flat. destruct oq as [q|]; flat; auto. destruct I as (P & I). destruct (INV_add h q ks tr P data KClient I) as [(El & P' & IP)|(l & it & El & Nl & P' & IP)]; rewrite El; flat.
        * destruct (Nat.eqb_spec (p_idle (set_ends q (Some (length h)) (Some (length h)))) 0) as [Ez|Ez]; cbn [attach]; flat; apply fine_ok, parts_inv.
          { destruct (INV_neutral _ _ (Some (set_idle (set_refs (set_ends q (Some (length h)) (Some (length h))) (p_refs (set_ends q (Some (length h)) (Some (length h))) + 1)) n)) _ _ t [] [] k0 P' [ESource n] (IP 0 0%nat) E) as (P2 & I2); cbn; auto. rewrite (upd_same ks t ([] ++ k0) E) in I2. exists P2. exact I2. }
          exists P'. specialize (IP (p_refs q) (p_idle q)). exact IP.
        * rewrite (get_ok _ _ _ Nl). flat. rewrite (put_ok _ _ _ _ Nl). flat.
          destruct (Nat.eqb_spec (p_idle (set_ends q (p_first q) (Some (length h)))) 0) as [Ez|Ez]; cbn [attach]; flat; apply fine_ok, parts_inv.
          { destruct (INV_neutral _ _ (Some (set_idle (set_refs (set_ends q (p_first q) (Some (length h))) (p_refs (set_ends q (p_first q) (Some (length h))) + 1)) n)) _ _ t [] [] k0 P' [ESource n] (IP 0 0%nat) E) as (P2 & I2); cbn; auto. rewrite (upd_same ks t ([] ++ k0) E) in I2. exists P2. exact I2. }
          exists P'. specialize (IP (p_refs q) (p_idle q)). exact IP.
      + destruct oq as [q|]; flat; auto. apply fine_ok, parts_inv. destruct I as (P & I).
        destruct (INV_neutral _ _ (Some (set_refs q (p_refs q + 1))) _ _ t [] [] k0 P [ERef] I E) as (P2 & I2); cbn; auto. rewrite (upd_same ks t ([] ++ k0) E) in I2. eauto.
      + flat. exact (drop_fine h oq v srcs n ks tr t [] [] k0 I E ltac:(cbn; lia) eq_refl eq_refl [EUnref] eq_refl).
      + flat. apply fine_ok, parts_inv. destruct I as (P & I). eapply (INV_neutral _ _ oq _ _ t [] [FLoop WClient] k0 P [EDrain t] I E); auto.
      + flat. apply fine_ok, parts_inv. destruct I as (P & I). eapply (INV_neutral _ _ oq _ _ t [] [FLoop WDestroy] k0 P [EKill] I E); auto.
    - intros sid. unfold dispatch. flat. destruct (existsb _ srcs); auto. flat. destruct oq as [q|]; flat; auto. apply fine_ok, parts_inv. destruct I as (P & I).
      eapply (INV_neutral _ _ (Some (set_idle q 0)) _ _ t [] [if Nat.eqb t 0 then FLoop (WIdle sid) else FOther sid] k0 P [EIdle t sid] I E); auto.
      destruct (Nat.eqb t 0); reflexivity. }
  destruct k0 as [|f k].
  - destruct (Client [] eq_refl) as (Cc & Cd). destruct a as [|c| |sid| | ]; auto. { apply fine_ok. destruct v; exact Iv. } apply fine_ok. destruct v; exact Iv.
  - destruct f as [w|items item w|items item w|items item w|id w|w|sid].
    + destruct a; auto. unfold loop. flat. destruct oq as [q|]; flat; auto. destruct (p_first q) as [a|] eqn:Ef.
      * apply fine_ok, parts_inv. destruct I as (P & I). eapply INV_take; eauto.
      * destruct (Nat.eqb (p_idle q) 0). { eapply end_fine; eauto. }
        apply fine_ok, parts_inv. destruct I as (P & I). eapply (INV_neutral _ _ (Some (set_idle q 0)) _ _ t [FLoop w] [FRemove (p_idle q) w] k P [] I E); auto.
    + destruct a; auto. unfold batch. flat. destruct item as [a|].
      * destruct I as (P & I). destruct (INV_destroy _ _ _ _ _ _ _ _ _ _ I E) as (it & N & Hf). rewrite (get_ok _ _ _ N). flat. destruct (it_kind it) eqn:Ek.
        { apply fine_ok, parts_inv. exact (Hf (FCb items a w) (or_introl eq_refl)). }
        destruct (Hf (FSelf items a w) (or_intror eq_refl)) as (P1 & I1).
        assert (Z : nth_error (upd ks t (FSelf items a w :: k)) t = Some ([] ++ FSelf items a w :: k)) by (eapply upd_here; eauto).
        pose proof (drop_fine h oq v srcs n _ _ t [] [] _ (ex_intro _ P1 I1) Z ltac:(auto) eq_refl eq_refl [] eq_refl) as F. cbn [app] in F.
        clear - F. unfold drop in *. revert F. flat. destruct oq as [q|]; flat; auto. destruct (p_refs q - 1 =? 0); [destruct (p_shared q)|]; unfold set_stack, emit, set_pool, set_var; flat; rewrite upd_upd; auto.
      * destruct I as (P & I). destruct (INV_free _ _ _ _ _ _ _ _ _ I E) as (h' & Ec & P1 & I1). rewrite Ec. flat. apply fine_ok, parts_inv. eauto.
    + destruct (Client _ eq_refl) as (Cc & Cd). destruct a as [|c| |sid| | ]; auto.
      * flat. eapply (next_fine h oq v srcs n ks tr t items item w k _ [EReturn t]); eauto.
      * apply fine_ok. destruct v; exact Iv.
      * apply fine_ok. destruct v; exact Iv.
    + destruct a; auto. eapply (next_fine h oq v srcs n ks tr t items item w k _ []); eauto.
    + destruct a; auto. unfold remove. flat. destruct (find _ srcs) as [(i & [|])|].
      * apply fine_ok, parts_inv. destruct I as (P & I). eapply (INV_neutral _ _ oq _ _ t [FRemove id w] [FRemoved w] k P [] I E); auto.
      * exact (drop_fine h oq v (without srcs id) n ks tr t [FRemove id w] [FRemoved w] k I E ltac:(cbn; lia) eq_refl eq_refl [EUnsource id] eq_refl).
      * apply fine_ok, parts_inv. destruct I as (P & I). eapply (INV_neutral _ _ oq _ _ t [FRemove id w] [FRemoved w] k P [EBadRemove id] I E); auto.
    + destruct a; auto. eapply end_fine; eauto.
    + destruct a; auto. unfold idle_end. flat. exact (drop_fine h oq v (without srcs sid) n ks tr t [FOther sid] [] k I E ltac:(cbn; lia) eq_refl eq_refl [EIdleEnd t sid] eq_refl).
Qed.

Lemma new_inv n : inv (start_new n).
Proof.
  exists []. constructor; cbn; auto.
  - induction n; cbn; auto.
  - constructor.
  - intros a [].
  - intros a it X. destruct a; discriminate.
  - intros a (d & k & [X|[]]). discriminate.
  - intros t. destruct t as [|t]; cbn; auto. rewrite nth_repeat. constructor.
  - intros a (it & X). destruct a; discriminate.
Qed.
Lemma shared_start n : exists s, start_shared n = Ok s /\ s = State [Some (Item None 0 KSelf)] (Some (Pool 2 1 (Some 0%nat) (Some 0%nat) true)) VThis [(1%nat, false)] 2 (repeat [] (S n))
  [ESource 1; EAdd 0 0 KSelf; EShared].
Proof. eexists. split; reflexivity. Qed.
Lemma starts_inv s : starts s -> inv s.
Proof.
  intros (n & [-> |E]); [apply new_inv|]. destruct (shared_start n) as (s' & E' & ->). rewrite E' in E. injection E as <-. clear E'.
  exists []. constructor; cbn; auto.
  - split; auto. split; auto. eexists. split; [reflexivity|reflexivity].
  - induction n; cbn; auto.
  - constructor; [intros []|constructor].
  - intros a [<-|[]]. split; [eexists; reflexivity|]. intros (t & d & k & [X|[X|[X|[]]]]); discriminate.
  - intros [|[|a]] it X; try discriminate. injection X as <-. auto.
  - intros a (d & k & [X|[X|[X|[]]]]); try discriminate. injection X as <- _ _. auto.
  - repeat split; auto. intros (d & k & [X|[]]). discriminate.
  - intros t. destruct t as [|t]; cbn; auto. rewrite nth_repeat. constructor.
  - intros [|[|a]] (it & X); try discriminate. auto.
Qed.
Lemma run_inv l : forall s s', inv s -> run s l = Ok s' -> inv s'.
Proof.
  induction l as [|a l IH]; cbn [run]; intros s s' I E. { injection E as <-. auto. }
  destruct (step s a) as [s1|f] eqn:Es; cbn [bind] in E; [|discriminate]. apply (IH s1); auto.
  destruct (step_fine s a I) as [(s2 & E2 & I2)|(f & E2 & _)]; congruence.
Qed.
