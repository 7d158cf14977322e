(* Properties of NULL terminated arrays and of id helpers (gutil_misc.c) *)
From Verif Require Import Base PtrvModel PtrvSpec PtrvProofs.
From Coq Require Import ZifyBool.

(* ================= C77 ================= *)
(* No array of 2^64 pointers exists *)
Theorem C77_length v l : holds v l -> len l < 2^64 -> ptrv_length v = Ok (len l).
Proof. exact (length_spec v l). Qed.
Print Assumptions C77_length.

Theorem C77_is_empty v l : holds v l -> exists r, ptrv_is_empty v = Ok r /\ (r = true <-> l = []).
Proof.
  intros H. destruct v as [b|]; cbn [ptrv_is_empty].
  - destruct H as (junk & ->). destruct l; cbn; eexists; (split; [reflexivity|]); split; auto; discriminate.
  - cbn in H. subst. exists true. split; auto. tauto.
Qed.
Print Assumptions C77_is_empty.

(* each element is freed, once, and nothing else *)
Theorem C77_free (A : Type) (h : objects A) v l : holds v l -> NoDup l -> (forall x, In x l -> is_live h x) ->
  exists h', ptrv_free h v = Ok h' /\ frees h l h'.
Proof. exact (ptrv_free_spec h v l). Qed.
Print Assumptions C77_free.

Definition ex_v : vec := Some [CPtr 2; CPtr 0; CNull; CJunk].
Example C77_example : holds ex_v [2%nat; 0%nat] /\ ptrv_length ex_v = Ok 2 /\ ptrv_is_empty ex_v = Ok false /\
  (forall x, In x [2%nat; 0%nat] -> is_live [Some 7; Some 8; Some 9] x) /\ ptrv_free [Some 7; Some 8; Some 9] ex_v = Ok [None; Some 8; None].
Proof.
  split; [exists [CJunk]; reflexivity|]. do 2 (split; [reflexivity|]). split; [|reflexivity].
  intros x [<-|[<-|[]]]; eexists; reflexivity.
Qed.

(* A source is removed once: its id is cleared, and zero is left alone *)
Theorem C77_source_clear w i : i <> 0 -> In i (alive w) ->
  exists w', source_clear w (Some i) = (w', Some 0, true) /\ bad w' = bad w /\ (forall x, In x (alive w') <-> In x (alive w) /\ x <> i) /\
    source_clear w' (Some 0) = (w', Some 0, false) /\ source_clear w' None = (w', None, false) /\
    source_remove w i = (w', true) /\ source_remove w' 0 = (w', false).
Proof.
  intros N H. unfold source_clear, source_remove. rewrite (proj2 (Z.eqb_neq i 0)) by auto. cbn [negb]. eexists. split; [reflexivity|].
  unfold remove_id. assert (existsb (Z.eqb i) (alive w) = true) as -> by (apply existsb_exists; exists i; split; auto; apply Z.eqb_refl). cbn [alive bad].
  split; auto. split; [|repeat split; auto]. intros x. rewrite filter_In. destruct (Z.eqb_spec x i); cbn; intuition congruence.
Qed.
Print Assumptions C77_source_clear.

(* All handlers are disconnected, each once, and their ids are cleared; ids after the first count ones stay *)
Theorem C77_disconnect w v count : 0 <= count <= len v ->
  NoDup (filter (fun x => negb (x =? 0)) (firstn (Z.to_nat count) v)) -> (forall x, In x (firstn (Z.to_nat count) v) -> x <> 0 -> In x (alive w)) ->
  exists w', disconnect_handlers w true (Some v) count = Ok (w', Some (repeat 0 (Z.to_nat count) ++ skipn (Z.to_nat count) v)) /\ bad w' = bad w /\
    (forall x, In x (alive w') <-> In x (alive w) /\ ~ (x <> 0 /\ In x (firstn (Z.to_nat count) v))).
Proof.
  intros Hc ND Al. cbn [disconnect_handlers]. set (n := Z.to_nat count) in *.
  assert (length (firstn n v) = n) as Ln by (rewrite firstn_length; unfold len in *; lia).
  pose proof (disconnect_spec n w [] (firstn n v) (skipn n v) (eq_sym Ln) ND Al) as E. cbn [app] in E. change (len []) with 0 in E. rewrite firstn_skipn in E.
  assert (map (fun _ => 0) (firstn n v) = repeat 0 n) as EM.
  { transitivity (repeat 0 (length (firstn n v))); [|congruence]. clear. induction (firstn n v); cbn; f_equal; auto. }
  rewrite EM in E. rewrite E. cbn [bind]. eexists. split; [reflexivity|]. split.
  - reflexivity.
  - cbn [alive]. intros x. rewrite filter_In. rewrite negb_true_iff. rewrite <- not_true_iff_false, existsb_exists.
    split; intros (H1 & H2); (split; [auto|]); intros H3; apply H2.
    + exists x. split; [apply filter_In; split; [tauto|]; lia|apply Z.eqb_refl].
    + destruct H3 as (y & Hy & Ey). apply filter_In in Hy. assert (x = y) by lia. subst y. split; [lia|tauto].
Qed.
Print Assumptions C77_disconnect.

Example C77_disconnect_example : NoDup (filter (fun x => negb (x =? 0)) (firstn 3 [5; 0; 7; 9])) /\
  disconnect_handlers (mkIds [9; 7; 5] 0) true (Some [5; 0; 7; 9]) 3 = Ok (mkIds [9] 0, Some [0; 0; 0; 9]).
Proof. split; [repeat constructor; cbn; intuition discriminate|reflexivity]. Qed.

Lemma remove_id_in w i x : In x (alive (remove_id w i)) <-> In x (alive w) /\ x <> i.
Proof.
  unfold remove_id. destruct (existsb (Z.eqb i) (alive w)) eqn:E; cbn [alive].
  - rewrite filter_In. destruct (Z.eqb_spec x i); cbn; intuition congruence.
  - split; [|tauto]. intros H. split; auto. intros ->. assert (existsb (Z.eqb i) (alive w) = true) by (apply existsb_exists; exists i; split; auto; apply Z.eqb_refl). congruence.
Qed.

(* Any id, also of a source which is gone: then GLib complains once, the id is cleared and the result is TRUE nevertheless *)
Theorem C77_source_exact w i : exists w', source_remove w i = (w', negb (i =? 0)) /\ source_clear w (Some i) = (w', Some 0, negb (i =? 0)) /\ (i = 0 -> w' = w) /\
  (i <> 0 -> (forall x, In x (alive w') <-> In x (alive w) /\ x <> i) /\ (In i (alive w) -> bad w' = bad w) /\ (~ In i (alive w) -> bad w' = bad w + 1)).
Proof.
  unfold source_remove, source_clear. destruct (Z.eqb_spec i 0) as [->|N]; cbn [negb].
  - exists w. repeat split; auto; contradiction.
  - exists (remove_id w i). split; auto. split; auto. split; [contradiction|]. intros _. split; [intros x; apply remove_id_in|]. unfold remove_id. destruct (existsb (Z.eqb i) (alive w)) eqn:E; cbn [bad]; split; auto; intros H; exfalso.
    + apply existsb_exists in E. destruct E as (y & Hy & Ey). apply Z.eqb_eq in Ey. subst. contradiction.
    + assert (existsb (Z.eqb i) (alive w) = true) by (apply existsb_exists; exists i; split; auto; apply Z.eqb_refl). congruence.
Qed.
Print Assumptions C77_source_exact.

Example C77_example_source : source_clear (mkIds [5; 6] 0) (Some 6) = (mkIds [5] 0, Some 0, true) /\ source_clear (mkIds [5] 0) (Some 6) = (mkIds [5] 1, Some 0, true).
Proof. split; reflexivity. Qed.

Lemma filter_one (i : Z) l : NoDup l -> In i l -> len (filter (fun x => negb (x =? i)) l) = len l - 1.
Proof.
  induction 1 as [|x l N D IH]; [contradiction|]. intros [->|H]; cbn [filter].
  - rewrite Z.eqb_refl. cbn [negb]. rewrite len_cons. replace (filter (fun x => negb (x =? i)) l) with l; [lia|]. clear - N. induction l as [|y l IH]; auto. cbn [filter]. destruct (Z.eqb_spec y i) as [->|Ne]; [exfalso; apply N; left; auto|]. cbn [negb]. f_equal. apply IH. intros H. apply N. right. auto.
  - destruct (Z.eqb_spec x i) as [->|Ne]; [contradiction|]. cbn [negb]. rewrite !len_cons, IH by auto. lia.
Qed.

Lemma disconnect_exact : forall mid w pre post, NoDup (alive w) ->
  exists w', disconnect_loop (length mid) w (pre ++ mid ++ post) (len pre) = Ok (w', pre ++ repeat 0 (length mid) ++ post) /\ NoDup (alive w') /\
    (forall x, In x (alive w') <-> In x (alive w) /\ ~ (x <> 0 /\ In x mid)) /\ bad w' - bad w = len (filter (fun x => negb (x =? 0)) mid) - (len (alive w) - len (alive w')).
Proof.
  induction mid as [|x mid IH]; intros w pre post ND; cbn [length disconnect_loop app repeat].
  - exists w. split; auto. split; auto. split; [cbn; tauto|]. cbn. lia.
  - rewrite (proj2 (rd_ok _ _ x)). 2:{ unfold len. split; [lia|]. rewrite Nat2Z.id, nth_error_app2, Nat.sub_diag by lia. reflexivity. }
    cbn [bind filter]. replace (len pre + 1) with (len (pre ++ [0])) by (rewrite len_app; reflexivity). destruct (Z.eqb_spec x 0) as [->|Nx]; cbn [negb].
    + replace (pre ++ 0 :: mid ++ post) with ((pre ++ [0]) ++ mid ++ post) by (rewrite <- app_assoc; reflexivity). destruct (IH w (pre ++ [0]) post ND) as (w' & -> & D & A & B).
      exists w'. rewrite <- !app_assoc. split; [reflexivity|]. split; auto. split; auto. intros y. rewrite A. cbn [In]. intuition congruence.
    + rewrite wr_mid. cbn [bind]. replace (pre ++ 0 :: mid ++ post) with ((pre ++ [0]) ++ mid ++ post) by (rewrite <- app_assoc; reflexivity).
      assert (ND' : NoDup (alive (remove_id w x))) by (unfold remove_id; destruct (existsb _ _); cbn [alive]; auto; apply NoDup_filter; auto).
      assert (L : bad (remove_id w x) - bad w = 1 - (len (alive w) - len (alive (remove_id w x)))).
      { unfold remove_id. destruct (existsb (Z.eqb x) (alive w)) eqn:E; cbn [alive bad]; [|lia]. apply existsb_exists in E. destruct E as (y & Hy & Ey). apply Z.eqb_eq in Ey. subst y. rewrite filter_one by auto. lia. }
      destruct (IH (remove_id w x) (pre ++ [0]) post ND') as (w' & -> & D & A & B). exists w'. rewrite <- !app_assoc. split; [reflexivity|]. split; auto. split.
      * intros y. rewrite A, remove_id_in. cbn [In]. split; [intros ((H1 & H2) & H3); split; auto; intros (K1 & [K|K]); [congruence|tauto]|]. intros (H1 & H2). split; [split; auto; intros ->; tauto|tauto].
      * rewrite len_cons. lia.
Qed.

(* Any ids: those of handlers which are gone, or met twice, are what GLib complains about. NULL for the instance or the array: nothing happens. *)
Theorem C77_disconnect_exact w v count : 0 <= count <= len v -> NoDup (alive w) ->
  (exists w', disconnect_handlers w true (Some v) count = Ok (w', Some (repeat 0 (Z.to_nat count) ++ skipn (Z.to_nat count) v)) /\ NoDup (alive w') /\
    (forall x, In x (alive w') <-> In x (alive w) /\ ~ (x <> 0 /\ In x (firstn (Z.to_nat count) v))) /\
    bad w' - bad w = len (filter (fun x => negb (x =? 0)) (firstn (Z.to_nat count) v)) - (len (alive w) - len (alive w'))) /\
  disconnect_handlers w false (Some v) count = Ok (w, Some v) /\ (forall instance n, disconnect_handlers w instance None n = Ok (w, None)).
Proof.
  intros Hc ND. split; [|split; reflexivity]. cbn [disconnect_handlers]. set (n := Z.to_nat count) in *.
  assert (length (firstn n v) = n) as Ln by (rewrite firstn_length; unfold len in *; lia).
  destruct (disconnect_exact (firstn n v) w [] (skipn n v) ND) as (w' & E & D & A & B). rewrite Ln in E. cbn [app] in E. change (len []) with 0 in E. rewrite firstn_skipn in E. rewrite E. cbn [bind]. exists w'. auto.
Qed.
Print Assumptions C77_disconnect_exact.

Example C77_example_disconnect : disconnect_handlers (mkIds [9; 7; 5] 0) true (Some [5; 0; 5; 8; 9]) 4 = Ok (mkIds [9; 7] 2, Some [0; 0; 0; 0; 9]).
Proof. reflexivity. Qed.
