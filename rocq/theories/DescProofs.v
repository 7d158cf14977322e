From Coq Require Import String.
From Verif Require Import Base LogModel LogSpec LogProofs LogProps DescModel DescSpec.

Definition head_line : list Z := chars "Log Levels:".
Definition line_of (deflt : Z) (i : Z) (p : list Z * list Z) : list Z :=
  chars "   " ++ [48 + i] ++ chars ", " ++ pad8 (fst p) ++ chars "    " ++ snd p ++ if i =? deflt then chars " (default)" else [].
Fixpoint numbered (deflt i : Z) (l : list (list Z * list Z)) : list (list Z) := match l with [] => [] | p :: l => line_of deflt i p :: numbered deflt (i + 1) l end.
Fixpoint unlines (l : list (list Z)) : list Z := match l with [] => [] | x :: l => x ++ 10 :: unlines l end.
Lemma unlines_app a b : unlines (a ++ b) = unlines a ++ unlines b.
Proof. induction a as [|x a IH]; cbn [unlines app]; auto. rewrite IH, <- app_assoc. reflexivity. Qed.
Lemma lines_unlines l : Forall (fun x => ~ In 10 x) l -> lines (unlines l) l.
Proof. induction 1; cbn [unlines]; constructor; auto. Qed.
Lemma lines_unique t a b : lines t a -> lines t b -> a = b.
Proof.
  intros A. revert b. induction A as [|l t ls N A IH]; intros b B.
  - inversion B as [E|l t ls N A E]; auto. destruct l; discriminate.
  - inversion B as [E|l' t' ls' N' A' E]; subst; [destruct l; discriminate|].
    assert (X : l' = l /\ t' = t).
    { clear - N N' E. revert l' N' E. induction l as [|x l IH]; intros [|y l'] N' E; cbn in E.
      - injection E as E. auto.
      - injection E as E1 E2. destruct N'. left. auto.
      - injection E as E1 E2. destruct N. left. auto.
      - injection E as E1 E2. subst y. destruct (IH ltac:(intros Q; apply N; right; auto) l' ltac:(intros Q; apply N'; right; auto) E2) as (-> & ->). auto. }
    destruct X as (-> & ->). f_equal. auto.
Qed.
Lemma desc_levels_ok deflt : desc_levels 6 deflt 0 (lit "Log Levels:" ++ nl) = Ok (unlines (head_line :: numbered deflt 0 levels)).
Proof.
  assert (G : forall n i d, 0 <= i -> (n + Z.to_nat i = 6)%nat -> desc_levels n deflt i d = Ok (d ++ unlines (numbered deflt i (skipn (Z.to_nat i) levels)))).
  { induction n as [|n IH]; intros i d P E.
    - replace (Z.to_nat i) with 6%nat by lia. cbn. rewrite app_nil_r. reflexivity.
    - assert (L : (Z.to_nat i < 6)%nat) by lia. cbn [desc_levels]. destruct (nth_error levels (Z.to_nat i)) as [p|] eqn:N; [|apply nth_error_None in N; cbn in N; lia].
      assert (R : rd levels i = Ok p). { unfold rd. unfold len. cbn [List.length levels]. replace (0 <=? i) with true by lia. replace (i <? Z.of_nat 6) with true by lia. cbn [andb]. rewrite N. reflexivity. }
      rewrite R. cbn [bind]. destruct p as (name & text). rewrite IH by lia.
      assert (S : skipn (Z.to_nat i) levels = (name, text) :: skipn (Z.to_nat (i + 1)) levels).
      { replace (Z.to_nat (i + 1)) with (S (Z.to_nat i)) by lia. clear - N. revert N. generalize (Z.to_nat i). generalize levels. induction l as [|q l IH]; intros [|n] N; cbn in *; try discriminate; [congruence|]. rewrite (IH _ N). destruct l; reflexivity. }
      rewrite S. cbn [numbered unlines]. unfold line_of. cbn [fst snd]. f_equal. change (lit "   ") with (chars "   "). change (lit ", ") with (chars ", "). change (lit "    ") with (chars "    "). change (lit " (default)") with (chars " (default)").
      unfold fmt_d, nl. destruct (i =? deflt); repeat rewrite <- app_assoc; cbn [app]; reflexivity. }
  rewrite G by (cbn; lia). reflexivity.
Qed.
Definition mod_line (n : list Z) : list Z := chars "  " ++ n.
Lemma desc_modules_ok c modules names : Forall2 (fun m n => name_of c m = Some n) modules names -> forall count d, count <= len modules ->
  desc_modules (Z.to_nat count) c modules 0 d = Ok (d ++ unlines (map mod_line (firstn (Z.to_nat count) names))).
Proof.
  intros F.
  assert (G : forall k pre rest rn d, modules = pre ++ rest -> Forall2 (fun m n => name_of c m = Some n) rest rn -> (k <= length rest)%nat ->
    desc_modules k c modules (len pre) d = Ok (d ++ unlines (map mod_line (firstn k rn)))).
  { induction k as [|k IH]; intros pre rest rn d E R L; cbn [desc_modules firstn map unlines]; [rewrite app_nil_r; auto|].
    destruct rest as [|m rest]; [cbn in L; lia|]. inversion R as [|? n ? rn' N R']; subst rn. subst modules.
    assert (X : rd (pre ++ m :: rest) (len pre) = Ok m).
    { unfold rd, len. rewrite app_length. cbn [List.length]. replace (0 <=? Z.of_nat (length pre)) with true by lia. replace (Z.of_nat (length pre) <? _) with true by lia. cbn [andb]. rewrite Nat2Z.id, nth_error_app2, Nat.sub_diag by lia. reflexivity. }
    rewrite X. cbn [bind]. unfold name_of in N. unfold the_mod. destruct (nth_error (c_mods c) m) as [md|]; [|discriminate]. cbn [bind]. rewrite N.
    pose proof (IH (pre ++ [m]) rest rn' (d ++ (lit "  " ++ n ++ nl))) as Q. replace (len (pre ++ [m])) with (len pre + 1) in Q by (unfold len; rewrite app_length; cbn; lia). rewrite Q; [|rewrite <- app_assoc; reflexivity|auto|cbn in L; lia]. cbn [map firstn unlines]. unfold mod_line. f_equal. change (lit "  ") with (chars "  "). unfold nl. repeat rewrite <- app_assoc. reflexivity. }
  intros count d L. apply (G (Z.to_nat count) [] modules names d eq_refl F). unfold len in L. lia.
Qed.

(* ---------------- a line is read in one way only ---------------- *)
Lemma span_unique (P : Z -> Prop) a : forall a' b b', a ++ b = a' ++ b' -> Forall P a -> Forall P a' -> (forall x t, b = x :: t -> ~ P x) -> (forall x t, b' = x :: t -> ~ P x) -> a = a' /\ b = b'.
Proof.
  induction a as [|x a IH]; intros [|y a'] b b' E F F' N N'; cbn in E.
  - auto.
  - exfalso. inversion F'; subst. apply (N _ _ eq_refl). auto.
  - exfalso. inversion F; subst. apply (N' _ _ eq_refl). auto.
  - injection E as -> E. inversion F; inversion F'; subst. destruct (IH a' b b' E) as (-> & ->); auto.
Qed.
Lemma level_line_unique line n w t n' w' t' : level_line line n w t -> level_line line n' w' t' -> n = n' /\ w = w' /\ t = t'.
Proof.
  intros (a & b & c & E & A & B & C & N & W & DN & DW & H) (a' & b' & c' & E' & A' & B' & C' & N' & W' & DN' & DW' & H'). rewrite E in E'.
  assert (nb : forall m r x q, m <> [] -> Forall (fun x => 48 <= x <= 57) m -> m ++ r = x :: q -> 32 <> x).
  { intros [|y m] r x q NE F Q; [congruence|]. injection Q as -> _. inversion F. lia. }
  assert (wb : forall m r x q, m <> [] -> Forall (fun x => 97 <= x <= 122) m -> m ++ r = x :: q -> 32 <> x).
  { intros [|y m] r x q NE F Q; [congruence|]. injection Q as -> _. inversion F. lia. }
  destruct (span_unique (eq 32) _ _ _ _ E' A A') as (_ & E1); [intros x q; apply nb; auto|intros x q; apply nb; auto|].
  destruct (span_unique (fun x => 48 <= x <= 57) _ _ _ _ E1 DN DN') as (-> & E2); [intros x q Q; injection Q as <- _; lia|intros x q Q; injection Q as <- _; lia|].
  injection E2 as E2. destruct (span_unique (eq 32) _ _ _ _ E2 B B') as (_ & E3); [intros x q; apply wb; auto|intros x q; apply wb; auto|].
  destruct (span_unique (fun x => 97 <= x <= 122) _ _ _ _ E3 DW DW') as (-> & E4); [intros x q Q; injection Q as <- _; lia|intros x q Q; injection Q as <- _; lia|].
  injection E4 as E4. destruct (span_unique (eq 32) _ _ _ _ E4 C C') as (_ & ->); [intros x q ->; cbn in H; congruence|intros x q ->; cbn in H'; congruence|]. auto.
Qed.
Lemma line_ok deflt v : 0 <= v <= 5 -> exists line word text, nth_error (numbered deflt 0 levels) (Z.to_nat v) = Some line /\ level_line line [48 + v] word text /\
  nth_error words (Z.to_nat v) = Some word /\ (is_default text <-> v = deflt).
Proof.
  intros V.
  assert (D : forall i p, (8 >= length (fst p))%nat -> fst p <> [] -> Forall (fun x => 97 <= x <= 122) (fst p) -> hd 32 (snd p) <> 32 -> 0 <= i <= 9 ->
    level_line (line_of deflt i p) [48 + i] (fst p) (snd p ++ if i =? deflt then chars " (default)" else [])).
  { intros i (name & text) L NE F H R. cbn [fst snd] in *. exists (chars "   "), (chars " "), (repeat 32 (8 - length name) ++ chars "   ").
    assert (SP : forall n, Forall (eq 32) (repeat 32 n)) by (induction n; cbn; constructor; auto).
    split; [|split; [repeat constructor|split; [repeat constructor|split; [apply Forall_app; split; [apply SP|repeat constructor]|]]]].
    - unfold line_of, pad8. cbn [fst snd]. change (chars ", ") with (chars "," ++ chars " "). repeat rewrite <- app_assoc.
      assert (Q : forall n z, repeat 32 n ++ chars "    " ++ z = chars " " ++ repeat 32 n ++ chars "   " ++ z). { induction n as [|n IH]; intros z; [reflexivity|]. cbn [repeat app]. rewrite IH. reflexivity. }
      rewrite Q. reflexivity.
    - split; [discriminate|]. split; [auto|]. split; [repeat constructor; lia|]. split; [auto|]. destruct text; cbn in *; [congruence|auto]. }
  assert (E : forall text, ~ is_default text -> (is_default (text ++ if v =? deflt then chars " (default)" else []) <-> v = deflt)).
  { intros text N. destruct (Z.eqb_spec v deflt) as [->|NE]; [split; auto; intros _; exists text; auto|]. rewrite app_nil_r. split; [contradiction|congruence]. }
  assert (ND : forall text, last text 0 <> 41 -> ~ is_default text).
  { intros text L (a & ->). apply L. change (chars " (default)") with (chars " (default" ++ [41]). rewrite app_assoc, last_last. reflexivity. }
  assert (C : v = 0 \/ v = 1 \/ v = 2 \/ v = 3 \/ v = 4 \/ v = 5) by lia.
  destruct C as [->|[->|[->|[->|[->| ->]]]]]; (eexists _, _, _; split; [reflexivity|]; split; [apply D; [vm_compute; lia|discriminate|repeat constructor; cbn; lia|discriminate|lia]|]; split; [reflexivity|]; apply E, ND; vm_compute; discriminate).
Qed.
Lemma numbered_nonl deflt : Forall (fun x => ~ In 10 x) (numbered deflt 0 levels).
Proof.
  assert (G : forall i p, 0 <= i <= 9 -> ~ In 10 (fst p) -> ~ In 10 (snd p) -> ~ In 10 (line_of deflt i p)).
  { intros i (n & t) R A B. unfold line_of, pad8. cbn [fst snd] in *. intros H. repeat (apply in_app_or in H; destruct H as [H|H]); auto; try (destruct H as [H|[]]; lia); try (cbn in H; intuition lia).
    - apply repeat_spec in H. lia.
    - destruct (i =? deflt); [cbn in H; intuition lia|destruct H]. }
  repeat constructor; apply G; try lia; cbn; intuition lia.
Qed.
Lemma description_ok deflt c modules names count : Forall2 (fun m n => name_of c m = Some n) modules names -> count <= len modules ->
  description deflt c (Some modules) count = Ok (unlines ((head_line :: numbered deflt 0 levels) ++ [[]; chars "Log Modules:"] ++ map mod_line (firstn (Z.to_nat count) names))).
Proof.
  intros F L. unfold description. change (Z.to_nat (VERBOSE + 1)) with 6%nat. rewrite desc_levels_ok. cbn [bind]. rewrite (desc_modules_ok _ _ _ F _ _ L), !unlines_app, <- app_assoc. reflexivity.
Qed.
