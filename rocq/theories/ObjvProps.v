(* Properties of object arrays (gutil_objv.c) *)
From Verif Require Import Base PtrvModel PtrvSpec PtrvProofs StrvModel StrvProofs ObjvModel ObjvSpec ObjvProofs.
From Coq Require Import ZifyBool.

(* ================= C51: lists ================= *)
(* the first object, the last one, and the first and last position of an object *)
Theorem C51_first_last v l : holds v l ->
  objv_first v = Ok (nth_error l 0) /\ (l = [] -> objv_last v = Ok None) /\ (forall a x, l = a ++ [x] -> objv_last v = Ok (Some x)).
Proof.
  intros H. pose proof (len_nonneg l). split; [|split].
  - destruct v as [b|]; cbn in H; [|subst; reflexivity]. destruct H as (junk & ->). cbn [objv_first]. rewrite at_any by lia. reflexivity.
  - intros ->. destruct v as [b|]; [|reflexivity]. destruct H as (junk & ->). reflexivity.
  - intros a x ->. destruct v as [b|]; [|cbn in H; destruct a; discriminate]. destruct H as (junk & ->). cbn [objv_last]. rewrite at_any by lia. cbn [bind].
    assert (exists z, nth_error (a ++ [x]) (Z.to_nat 0) = Some z) as (z & ->) by (destruct a; cbn; eauto). apply olast_spec.
Qed.
Print Assumptions C51_first_last.

Theorem C51_find v l x : holds v l -> fits l ->
  (objv_find v (Some x) = Ok (-1) /\ objv_find_last v (Some x) = Ok (-1) /\ objv_contains v (Some x) = Ok false /\ ~ In x l) \/
  (exists a c a' c', l = a ++ x :: c /\ ~ In x a /\ objv_find v (Some x) = Ok (len a) /\
     l = a' ++ x :: c' /\ ~ In x c' /\ objv_find_last v (Some x) = Ok (len a') /\ objv_contains v (Some x) = Ok true).
Proof.
  intros H L. assert ((objv_find v (Some x) = Ok (-1) /\ objv_contains v (Some x) = Ok false /\ ~ In x l) \/
    (exists a c, l = a ++ x :: c /\ ~ In x a /\ objv_find v (Some x) = Ok (len a) /\ objv_contains v (Some x) = Ok true)) as F.
  { destruct v as [b|]; [|left; cbn in H; subst; auto]. destruct H as (junk & ->). cbn [objv_find objv_contains].
    destruct (ofind_spec x junk l 0) as [(-> & N)|(a & c & -> & N & ->)]; cbn [bind]; [left; auto|]. right. exists a, c. pose proof (len_nonneg a). repeat split; auto. f_equal. lia. }
  destruct F as [(E & Ec & N)|(a & c & El & N & E & Ec)]; destruct (ofind_last_spec v l x H L) as [(E' & N')|(a' & c' & El' & N' & E')].
  - left. auto.
  - exfalso. apply N. rewrite El'. apply in_or_app. right. left. auto.
  - exfalso. apply N'. rewrite El. apply in_or_app. right. left. auto.
  - right. exists a, c, a', c'. auto 10.
Qed.
Print Assumptions C51_find.

(* Arrays are equal if they have the same objects; NULL is an empty array *)
Theorem C51_equal a1 v1 a2 v2 l1 l2 : holds v1 l1 -> holds v2 l2 -> fits l1 -> (a1 = a2 -> v1 = v2) ->
  exists r, objv_equal a1 v1 a2 v2 = Ok r /\ (r = true <-> l1 = l2).
Proof. exact (oequal_spec a1 v1 a2 v2 l1 l2). Qed.
Print Assumptions C51_equal.

(* Missing: positions of 2^32 and more in larger arrays (see below) *)
Theorem C51_at_partial v l pos : holds v l -> 0 <= pos -> pos < 2^32 \/ len l < 2^32 ->
  exists n, forall fuel, (n <= fuel)%nat -> objv_at fuel v pos = Ok (nth_error l (Z.to_nat pos)).
Proof.
  intros H Hp Hb. destruct v as [b|]; cbn [objv_at].
  - destruct H as (junk & ->). pose proof (len_nonneg l). exists (S (length l)). intros fuel Hf.
    assert (at_loop fuel (map CPtr l ++ CNull :: junk) 0 pos = Ok (Z.min pos (len l))) as ->.
    { destruct (Z.lt_ge_cases pos (2^32)) as [P|P]; [apply at_loop_spec; unfold len in *; lia|]. assert (len l < 2^32) as L by lia. clear Hb.
      rewrite Z.min_r by lia. assert (forall fuel k, (Z.to_nat (len l - k) < fuel)%nat -> 0 <= k <= len l -> at_loop fuel (map CPtr l ++ CNull :: junk) k pos = Ok (len l)) as AL.
      { clear fuel Hf. induction fuel as [|fuel IH]; intros k Hf Hk; [lia|]. cbn [at_loop]. rewrite at_any by lia. cbn [bind].
        destruct (nth_error l (Z.to_nat k)) eqn:E.
        - assert (k < len l) by (assert (Z.to_nat k < length l)%nat by (apply nth_error_Some; congruence); unfold len; lia). replace (k <? pos) with true by lia.
          rewrite u32_id by (unfold in_u32; lia). apply IH; lia.
        - apply nth_error_None in E. f_equal. unfold len in *. lia. }
      apply AL; unfold len in *; lia. }
    cbn [bind]. destruct (Z.eqb_spec (Z.min pos (len l)) pos) as [E|E].
    + apply at_any. lia.
    + rewrite (proj2 (nth_error_None l _)); auto. unfold len in *. lia.
  - cbn in H. subst. exists 0%nat. intros. destruct (Z.to_nat pos); reflexivity.
Qed.
Print Assumptions C51_at_partial.

(* the 32-bit index never gets there: gutil_objv_at does not return *)
Theorem C51_at_refuted : exists v l pos, holds v l /\ fits l /\ 0 <= pos < len l /\ forall fuel, objv_at fuel v pos = Fail NoFuel.
Proof.
  assert (exists n, n = 2^32) as (n & Hn) by eauto. set (l := repeat 7%nat (Z.to_nat (n + 1))).
  assert (len l = n + 1) as L by (unfold l, len; rewrite repeat_length; lia).
  exists (Some (map CPtr l ++ [CNull])), l, n. split; [exists []; reflexivity|]. split; [unfold fits; lia|]. split; [lia|]. intros fuel. cbn [objv_at].
  assert (forall k, 0 <= k < n -> at_loop fuel (map CPtr l ++ [CNull]) k n = Fail NoFuel) as AL.
  { induction fuel as [|fuel IH]; intros k Hk; [reflexivity|]. cbn [at_loop]. rewrite at_any by lia. cbn [bind].
    destruct (nth_error l (Z.to_nat k)) eqn:E; [|apply nth_error_None in E; unfold len in *; lia]. replace (k <? n) with true by lia.
    apply IH. unfold u32. pose proof (Z.mod_pos_bound (k + 1) (2^32)). lia. }
  rewrite AL by lia. reflexivity.
Qed.
Print Assumptions C51_at_refuted.

Definition ex_v : vec := Some [CPtr 2; CPtr 0; CPtr 2; CNull; CJunk].
Example C51_example : holds ex_v [2%nat; 0%nat; 2%nat] /\ objv_first ex_v = Ok (Some 2%nat) /\ objv_last ex_v = Ok (Some 2%nat) /\ objv_find ex_v (Some 2%nat) = Ok 0 /\
  objv_find_last ex_v (Some 2%nat) = Ok 2 /\ objv_contains ex_v (Some 1%nat) = Ok false /\ objv_equal 1 ex_v 2 (Some [CPtr 2; CPtr 0; CNull]) = Ok false /\
  objv_at 4 ex_v 1 = Ok (Some 0%nat) /\ objv_at 4 ex_v 3 = Ok None.
Proof. split; [exists [CJunk]; reflexivity|]. repeat split; reflexivity. Qed.

(* ================= C51, C52: updates ================= *)
(* Each function changes the list as it should, and the references of each object by the change of its number of occurrences
   (the array owns its references: r y >= occ y l; arguments are referenced by someone) *)
Definition changed (h : objs) (r : nat -> Z) (l : list nat) (h' : objs) (v' : vec) (l' : list nat) : Prop :=
  holds v' l' /\ counts h' (fun y => r y + (occ y l' - occ y l)) /\ length h' = length h.

Theorem C52_add h r v l x : counts h r -> holds v l -> fits l -> 0 < r x ->
  exists h' v', objv_add h v (Some x) = Ok (h', v') /\ changed h r l h' v' (l ++ [x]).
Proof.
  intros C H L K. destruct (add_spec h r v l x C H L K) as (h' & v' & E & H' & C' & L'). exists h', v'. split; auto. split; auto. split; auto.
  eapply counts_ext; [|exact C']. intros y. unfold add1. rewrite occ_app, occ_cons, occ_nil. destruct (Nat.eq_dec x y); lia.
Qed.
Print Assumptions C52_add.

Theorem C52_insert h r v l x pos : counts h r -> holds v l -> fits l -> 0 < r x -> 0 <= pos < 2^64 ->
  exists h' v', objv_insert h v (Some x) pos = Ok (h', v') /\ changed h r l h' v' (inserted x (Z.to_nat pos) l).
Proof.
  intros C H L K P. destruct (insert_spec h r v l x pos C H L K P) as (h' & v' & E & H' & C' & L'). exists h', v'. split; auto. split; auto. split; auto.
  eapply counts_ext; [|exact C']. intros y. unfold add1, inserted. assert (occ y l = occ y (firstn (Z.to_nat pos) l) + occ y (skipn (Z.to_nat pos) l)) by (rewrite <- occ_app, firstn_skipn; auto).
  rewrite occ_app, occ_cons. destruct (Nat.eq_dec x y); lia.
Qed.
Print Assumptions C52_insert.

(* Missing: appending an array to itself (see below) *)
Theorem C52_append_partial h r a1 v l a2 w q : counts h r -> holds v l -> holds w q -> fits (l ++ q) -> (forall y, occ y q <= r y) -> a1 <> a2 ->
  exists h' v', objv_append h a1 v a2 w = Ok (h', v') /\ changed h r l h' v' (l ++ q).
Proof.
  intros C H Hq L R N. destruct (append_spec h r a1 v l a2 w q C H Hq L R N) as (h' & v' & E & H' & C' & L'). exists h', v'. split; auto. split; auto. split; auto.
  eapply counts_ext; [|exact C']. intros y. unfold plus. rewrite occ_app. lia.
Qed.
Print Assumptions C52_append_partial.

(* gutil_objv_append(v, v) reads the array that g_renew has freed or moved *)
Theorem C52_append_self_refuted : exists h r v l, counts h r /\ holds v l /\ fits l /\ (forall y, occ y l <= r y) /\ objv_append h 1 v 1 v = Fail UseAfterFree.
Proof.
  exists [Some 1], (fun y => if Nat.eq_dec y 0 then 1 else 0), (Some [CPtr 0; CNull]), [0%nat]. split.
  - intros x. destruct (Nat.eq_dec x 0) as [->|N]; cbn [length]; repeat split; try lia; reflexivity.
  - split; [exists []; reflexivity|]. split; [reflexivity|]. split; [|reflexivity]. intros y. unfold occ. cbn [count_occ]. destruct (Nat.eq_dec 0 y), (Nat.eq_dec y 0); subst; try congruence; lia.
Qed.
Print Assumptions C52_append_self_refuted.

Theorem C52_remove h r v l x all : counts h r -> holds v l -> fits l -> (forall y, occ y l <= r y) ->
  exists h' v', objv_remove h v (Some x) all = Ok (h', v') /\ changed h r l h' v' (if (all : bool) then without_all x l else without1 x l).
Proof.
  intros C H L R. destruct (oremove_spec h r v l x all C H L R) as (h' & v' & E & H' & C' & L'). exists h', v'. split; auto. split; auto. split; auto.
  eapply counts_ext; [|exact C']. intros y. cbn beta. lia.
Qed.
Print Assumptions C52_remove.

Theorem C52_remove_at h r v l pos : counts h r -> holds v l -> fits l -> (forall y, occ y l <= r y) -> 0 <= pos < 2^64 ->
  exists h' v', objv_remove_at h v pos = Ok (h', v') /\ changed h r l h' v' (without_nth (Z.to_nat pos) l).
Proof.
  intros C H L R P. destruct (remove_at_spec h r v l pos C H L R P) as (h' & v' & E & H' & C' & L'). exists h', v'. split; auto. split; auto. split; auto.
  eapply counts_ext; [|exact C']. intros y. cbn beta. lia.
Qed.
Print Assumptions C52_remove_at.

(* a new array, a copy, and the end of an array *)
Theorem C52_new h r args : counts h r -> Forall (fun x => 0 < r x) args -> fits args ->
  exists h' v, objv_new h args = Ok (h', v) /\ changed h r [] h' v args.
Proof.
  intros C F L. destruct (new_spec h r args C F L) as (h' & v & E & H & C' & L'). exists h', v. split; auto. split; auto. split; auto.
  eapply counts_ext; [|exact C']. intros y. unfold plus. rewrite occ_nil. lia.
Qed.
Print Assumptions C52_new.

Theorem C52_copy h r v l : counts h r -> holds v l -> fits l -> (forall y, occ y l <= r y) ->
  exists h' v', objv_copy h v = Ok (h', v') /\ changed h r [] h' v' l.
Proof.
  intros C H L R. destruct (copy_spec h r v l C H R L) as (h' & v' & E & H' & C' & L'). exists h', v'. split; auto. split; auto. split; auto.
  eapply counts_ext; [|exact C']. intros y. unfold plus. rewrite occ_nil. lia.
Qed.
Print Assumptions C52_copy.

Theorem C52_free h r v l : counts h r -> holds v l -> (forall y, occ y l <= r y) ->
  exists h', objv_free h v = Ok h' /\ counts h' (fun y => r y - occ y l) /\ length h' = length h.
Proof. exact (free_spec h r v l). Qed.
Print Assumptions C52_free.

(* Any program using any number of arrays: every call works, every array has the objects of the corresponding list, and an object
   has one reference for each occurrence in an array and those of the program. In particular it is freed when nothing refers to it. *)
Theorem C52_programs p s w : agrees s w -> all_correct w p -> exists s', run s p = Ok s' /\ agrees s' (result w p).
Proof. exact (run_ok p s w). Qed.
Print Assumptions C52_programs.

(* the same for the lists alone *)
Theorem C51_programs p s w : agrees s w -> all_correct w p -> forall i l, nth_error (fst (result w p)) i = Some (Some l) ->
  exists h vs v, run s p = Ok (h, vs) /\ nth_error vs i = Some (Some v) /\ holds v l.
Proof.
  intros A V i l E. destruct (run_ok p s w A V) as ((h & vs) & R & (_ & _ & F)). destruct (Forall2_nth _ _ _ _ _ F E) as ([v|] & Ev & P); [|contradiction].
  exists h, vs, v. destruct P. auto.
Qed.
Print Assumptions C51_programs.

(* two objects of the program; all commands but the last reference of the program to object 1 *)
Definition ex_s : state := ([Some 1; Some 1], []).
Definition ex_w : world := ([], fun x => if Nat.ltb x 2 then 1 else 0).
Definition ex_p : list cmd :=
  [ONew [0; 1; 0]%nat; OCopy 0; OAdd 0 1; OInsert 0 0 1; OAppend 0 1; ORef 1; OUnref 1; OUnref 0; ORemove 0 0 true; ORemoveAt 0 0; ORemove 0 1 false; OFree 1].
Example C52_example : agrees ex_s ex_w /\ all_correct ex_w ex_p /\ run ex_s ex_p = Ok ([None; Some 2], [Some (Some [CPtr 1; CNull]); None]).
Proof.
  split; [|split].
  - split; [|split; [|constructor]].
    + intros x. cbn [ex_s ex_w fst snd total fold_right length]. destruct (Nat.ltb_spec x 2); repeat split; try lia. intros _. destruct x as [|[|x]]; [reflexivity|reflexivity|lia].
    + intros x. cbn [ex_w snd]. destruct (Nat.ltb x 2); lia.
  - cbn. unfold live, fits, len, add1, occ. cbn. repeat split; try lia; repeat constructor; eauto.
  - reflexivity.
Qed.
