(* Properties of the description of log options, for all modules *)
From Coq Require Import String.
From Verif Require Import Base LogModel LogSpec LogProofs LogProps DescModel DescSpec DescProofs.

(* ---------------- C93 ---------------- *)
Lemma desc_nonl deflt names n : Forall (fun n => ~ In 10 n) names -> Forall (fun l => ~ In 10 l) ((head_line :: numbered deflt 0 levels) ++ [[]; chars "Log Modules:"] ++ map mod_line (firstn n names)).
Proof.
  intros N. apply Forall_app. split; [constructor; [unfold head_line; vm_compute; intuition discriminate|apply numbered_nonl]|].
  constructor; [intros []|]. constructor; [vm_compute; intuition discriminate|]. revert n. induction N as [|x l H N IH]; intros [|n]; cbn [firstn map app]; constructor; auto.
  unfold mod_line. intros Q. apply in_app_or in Q. destruct Q as [Q|Q]; [vm_compute in Q; intuition discriminate|auto].
Qed.


(* The description has a line for each level, with the number and the name, the default one is marked; and then a line for each of the first count modules,
   in order. Partial: all modules have names, without newlines. *)
Theorem C93_layout_partial deflt c modules names count : Forall2 (fun m n => name_of c m = Some n) modules names -> Forall (fun n => ~ In 10 n) names -> count <= len modules ->
  exists t ls lm, description deflt c (Some modules) count = Ok t /\ lines t (chars "Log Levels:" :: ls ++ [[]; chars "Log Modules:"] ++ lm) /\ length ls = 6%nat /\
    (forall v, 0 <= v <= 5 -> exists line word text, nth_error ls (Z.to_nat v) = Some line /\ level_line line [48 + v] word text /\ nth_error words (Z.to_nat v) = Some word /\ (is_default text <-> v = deflt)) /\
    Forall2 module_line lm (firstn (Z.to_nat count) names).
Proof.
  intros F N L. exists (unlines ((head_line :: numbered deflt 0 levels) ++ [[]; chars "Log Modules:"] ++ map mod_line (firstn (Z.to_nat count) names))), (numbered deflt 0 levels), (map mod_line (firstn (Z.to_nat count) names)).
  split; [apply description_ok; auto|]. split; [|split; [reflexivity|split; [apply line_ok|]]].
  - apply (lines_unlines ((head_line :: numbered deflt 0 levels) ++ _)), desc_nonl, N.
  - induction (firstn (Z.to_nat count) names) as [|n l IH]; cbn [map]; constructor; auto. exists (chars "  "). split; [reflexivity|repeat constructor].
Qed.
Print Assumptions C93_layout_partial.

(* Without modules it describes the levels only *)
Theorem C93_levels deflt c count : exists t ls, description deflt c None count = Ok t /\ lines t (chars "Log Levels:" :: ls) /\ length ls = 6%nat /\
  forall v, 0 <= v <= 5 -> exists line word text, nth_error ls (Z.to_nat v) = Some line /\ level_line line [48 + v] word text /\ nth_error words (Z.to_nat v) = Some word /\ (is_default text <-> v = deflt).
Proof.
  exists (unlines (head_line :: numbered deflt 0 levels)), (numbered deflt 0 levels). split; [unfold description; change (Z.to_nat (VERBOSE + 1)) with 6%nat; rewrite desc_levels_ok; reflexivity|].
  split; [|split; [reflexivity|apply line_ok]]. apply lines_unlines. constructor; [unfold head_line; vm_compute; intuition discriminate|apply numbered_nonl].
Qed.
Print Assumptions C93_levels.

Lemma nth_firstn {A} (l : list A) n k : (k < n)%nat -> nth_error (firstn n l) k = nth_error l k.
Proof. revert n k. induction l as [|x l IH]; intros [|n] [|k] H; cbn; auto; try lia. apply IH. lia. Qed.
Lemma Forall2_nth {A B} (R : A -> B -> Prop) l l' : Forall2 R l l' -> forall k x, nth_error l k = Some x -> exists y, nth_error l' k = Some y /\ R x y.
Proof. induction 1 as [|x y l l' H F IH]; intros [|k] z E; cbn in *; try discriminate; [injection E as <-; eauto|eauto]. Qed.

(* What is read in the description works as an option: any module listed, a colon, and the number or the name of any level listed. It sets the level of that
   module and nothing else. Partial: the names of the modules have no newlines and colons and differ, also if the case of letters is ignored. *)
Theorem C93_options_partial deflt c modules names count t ls e : Forall2 (fun m n => name_of c m = Some n) modules names -> Forall (fun n => ~ In 10 n /\ ~ In 58 n /\ no_nul n) names ->
  count <= len modules -> (forall i j a b, nth_error names i = Some a -> nth_error names j = Some b -> same_name a b -> i = j) ->
  description deflt c (Some modules) count = Ok t -> lines t ls ->
  forall k m, nth_error (firstn (Z.to_nat count) modules) k = Some m ->
  exists line name, nth_error ls (9 + k) = Some line /\ module_line line name /\ name_of c m = Some name /\
    forall v lv number word text s, 0 <= v <= 5 -> nth_error ls (1 + Z.to_nat v) = Some lv -> level_line lv number word text -> s = number \/ s = word ->
    exists c', parse_option c (name ++ chars ":" ++ s) modules count e = Ok (true, c', false) /\ only_level c c' m v.
Proof.
  intros F N L D E LN k m K.
  assert (LE : ls = (head_line :: numbered deflt 0 levels) ++ [[]; chars "Log Modules:"] ++ map mod_line (firstn (Z.to_nat count) names)).
  { rewrite (description_ok _ _ _ _ _ F L) in E. remember (unlines _) as u eqn:U in E. injection E as <-. rewrite U in LN. eapply lines_unique; [exact LN|]. apply lines_unlines, desc_nonl. eapply Forall_impl; [|exact N]. cbn. tauto. }
  assert (KC : (k < Z.to_nat count)%nat). { assert (X : (k < length (firstn (Z.to_nat count) modules))%nat) by (apply nth_error_Some; congruence). rewrite firstn_length in X. lia. }
  rewrite nth_firstn in K by auto. destruct (Forall2_nth _ _ _ F k m K) as (name & KN & NM). pose proof (proj1 (Forall_forall _ _) N name (nth_error_In _ _ KN)) as (N10 & N58 & N0).
  exists (mod_line name), name. split; [|split; [|split; [exact NM|]]].
  - rewrite LE. cbn [app head_line numbered levels nth_error Nat.add]. change (fun x => x) with (fun x : nat => x). rewrite nth_error_map, nth_firstn, KN by auto. reflexivity.
  - exists (chars "  "). split; [reflexivity|repeat constructor].
  - intros v lv number word text s V LV LL S. destruct (line_ok deflt v V) as (lv' & word' & text' & LV' & LL' & W & _).
    assert (lv = lv') as ->.
    { rewrite LE in LV. cbn [Nat.add] in LV. rewrite nth_error_app1 in LV; [|cbn [List.length]; change (length (numbered deflt 0 levels)) with 6%nat; lia]. cbn [nth_error] in LV. congruence. }
    destruct (level_line_unique _ _ _ _ _ _ _ LL LL') as (-> & -> & _).
    assert (NL : names_level s v /\ no_nul s).
    { destruct S as [->| ->]; split.
      - left. auto.
      - constructor; [lia|constructor].
      - right. destruct LL' as (? & ? & ? & _ & _ & _ & _ & _ & X & _). split; auto. split; [lia|]. exists []. rewrite app_nil_r. exact W.
      - destruct LL' as (? & ? & ? & _ & _ & _ & _ & _ & _ & _ & X & _). eapply Forall_impl; [|exact X]. cbn. lia. }
    destruct NL as (NL & NZ). apply C64_module_partial; auto.
    + apply Forall_forall. intros m' H. apply In_nth_error in H. destruct H as (j & H). destruct (Forall2_nth _ _ _ F j m' H) as (n' & H1 & H2). exists n'. split; auto. apply (proj1 (Forall_forall _ _) N n' (nth_error_In _ _ H1)).
    + assert (K2 : nth_error (firstn (Z.to_nat count) modules) k = Some m) by (rewrite nth_firstn; auto).
      destruct (nth_error_split _ _ K2) as (a & b & EQ & LA). exists a, b, name. split; auto. split; auto. split; [reflexivity|]. intros j jn H JN SN. apply In_nth_error in H. destruct H as (i & H).
      assert (IL : (i < length a)%nat) by (apply nth_error_Some; congruence).
      assert (H1 : nth_error modules i = Some j). { rewrite <- (nth_firstn modules (Z.to_nat count) i) by lia. rewrite EQ, nth_error_app1 by lia. exact H. }
      destruct (Forall2_nth _ _ _ F i j H1) as (n' & I1 & I2). assert (n' = jn) by congruence. subst n'. pose proof (D i k jn name I1 KN SN). lia.
Qed.
Print Assumptions C93_options_partial.

(* A module whose name has a colon is listed but cannot be given *)
Theorem C93_options_refuted : exists c m name t line ls, name_of c m = Some name /\ description 3 c (Some [m]) 1 = Ok t /\ lines t ls /\ nth_error ls 9 = Some line /\ module_line line name /\
  parse_option c (name ++ chars ":" ++ chars "info") [m] 1 true = Ok (false, c, true).
Proof.
  set (c := Conf [LogMod None None None 3 0; LogMod (Some (chars "a:b")) None None (-1) 0] (Some FStdout) (Some PDefault)).
  exists c, 1%nat, (chars "a:b"). eexists _, (chars "  a:b"), _. split; [reflexivity|]. split; [apply (description_ok 3 c [1%nat] [chars "a:b"] 1); [repeat constructor|vm_compute; discriminate]|].
  split; [apply lines_unlines; apply Forall_app; split; [constructor; [vm_compute; intuition discriminate|apply numbered_nonl]|repeat constructor; vm_compute; intuition discriminate]|].
  split; [reflexivity|]. split; [exists (chars "  "); split; [reflexivity|repeat constructor]|]. vm_compute. reflexivity.
Qed.
Print Assumptions C93_options_refuted.

(* A module without a name must not be among the modules *)
Theorem C93_null_refuted : exists c modules, description 3 c (Some modules) (len modules) = Fail NullDeref.
Proof. exists x_conf, [1; 0]%nat. vm_compute. reflexivity. Qed.
Print Assumptions C93_null_refuted.

(* ---------------- examples ---------------- *)
Example C93_example_names : Forall2 (fun m n => name_of x_conf m = Some n) [1; 2; 3]%nat [chars "a"; chars "b"; chars "c"] /\ Forall (fun n => ~ In 10 n /\ ~ In 58 n /\ no_nul n) [chars "a"; chars "b"; chars "c"].
Proof. split; [repeat constructor|]. repeat constructor; vm_compute; intuition discriminate. Qed.
Example C93_example_text : description 3 x_conf (Some [1; 2]%nat) 2 = Ok (lit "Log Levels:
   0, none        Disable log output
   1, error       Errors only
   2, warning     From warning level to errors
   3, info        From information level to errors (default)
   4, debug       From debug messages to errors
   5, verbose     From verbose trace messages to errors

Log Modules:
  a
  b
").
Proof. vm_compute. reflexivity. Qed.
Example C93_example_option : exists c', parse_option x_conf (chars "b:warning") [1; 2; 3]%nat 3 true = Ok (true, c', false) /\ map m_level (c_mods c') = [3; 4; 2; -1].
Proof. eexists. split; vm_compute; reflexivity. Qed.
