(* Reading of the events in the buffer *)
From Verif Require Import Base InotifyModel InotifySpec.

Definition at_buf (buf : list (option Z)) (o n : Z) (p : list iev) : Prop :=
  0 <= o /\ o mod 4 = 0 /\ exists d rest, skipn (Z.to_nat o) buf = map Some d ++ rest /\ encodes p d /\ len d = n.

Lemma nth_error_skipn {A} (l : list A) n m : nth_error (skipn n l) m = nth_error l (n + m).
Proof.
  revert l; induction n; intros l; [reflexivity|]. destruct l; cbn; [destruct m; reflexivity|apply IHn].
Qed.

Lemma rd_byte_at buf o d rest j c :
  skipn (Z.to_nat o) buf = map Some d ++ rest -> 0 <= o -> 0 <= j -> nth_error d (Z.to_nat j) = Some c -> rd_byte buf (o + j) = Ok c.
Proof.
  intros H Ho Hj Hn. unfold rd_byte.
  assert (rd buf (o + j) = Ok (Some c)) as ->; [|reflexivity].
  apply rd_ok. split; [lia|]. replace (Z.to_nat (o + j)) with (Z.to_nat o + Z.to_nat j)%nat by lia.
  rewrite <- nth_error_skipn, H. rewrite nth_error_app1.
  - rewrite nth_error_map, Hn. reflexivity.
  - rewrite map_length. apply nth_error_Some. congruence.
Qed.

Lemma le32_value z : in_u32 z -> z mod 256 + 2^8 * ((z / 2^8) mod 256) + 2^16 * ((z / 2^16) mod 256) + 2^24 * ((z / 2^24) mod 256) = z.
Proof.
  intros [H0 H1].
  change 256 with (2^8) in *.
  assert (z / 2^24 < 2^8) by (apply Z.div_lt_upper_bound; lia).
  assert (0 <= z / 2^24) by (apply Z.div_pos; lia).
  rewrite (Z.mod_small (z / 2^24)) by lia.
  assert (E1 : z / 2^16 = 2^8 * (z / 2^24) + (z / 2^16) mod 2^8).
  { replace (2^24) with (2^16 * 2^8) by reflexivity. rewrite <- Z.div_div by lia. apply Z.div_mod. lia. }
  assert (E2 : z / 2^8 = 2^8 * (z / 2^16) + (z / 2^8) mod 2^8).
  { replace (2^16) with (2^8 * 2^8) by reflexivity. rewrite <- Z.div_div by lia. apply Z.div_mod. lia. }
  assert (E3 : z = 2^8 * (z / 2^8) + z mod 2^8) by (apply Z.div_mod; lia).
  remember (z / 2^8) as a. remember (z / 2^16) as b. remember (z / 2^24) as c.
  remember (a mod 2^8) as ar. remember (b mod 2^8) as br. remember (z mod 2^8) as zr.
  change (2^8) with 256 in *. change (2^16) with 65536 in *. change (2^24) with 16777216 in *. lia.
Qed.

Lemma rd_u32_at buf o a z b rest :
  skipn (Z.to_nat o) buf = map Some (a ++ le32 z ++ b) ++ rest -> 0 <= o -> (o + len a) mod 4 = 0 -> in_u32 z ->
  rd_u32 buf (o + len a) = Ok z.
Proof.
  intros H Ho Hm Hz. unfold rd_u32.
  assert ((28 + (o + len a)) mod 4 =? 0 = true) as ->.
  { apply Z.eqb_eq. rewrite Z.add_mod by lia. rewrite Hm. reflexivity. }
  assert (B : forall j c, (j < 4)%nat -> nth_error (le32 z) j = Some c -> rd_byte buf (o + (len a + Z.of_nat j)) = Ok c).
  { intros j c Hj Hc. pose proof (len_nonneg a). eapply rd_byte_at; [exact H|lia|lia|].
    rewrite nth_error_app2 by (unfold len in *; lia). rewrite nth_error_app1 by (unfold len in *; cbn; lia).
    rewrite <- Hc. f_equal. unfold len in *. lia. }
  replace (o + len a) with (o + (len a + Z.of_nat 0)) at 1 by lia. erewrite (B 0%nat) by (try reflexivity; lia). cbn [bind].
  replace (o + len a + 1) with (o + (len a + Z.of_nat 1)) by lia. erewrite (B 1%nat) by (try reflexivity; lia). cbn [bind].
  replace (o + len a + 2) with (o + (len a + Z.of_nat 2)) by lia. erewrite (B 2%nat) by (try reflexivity; lia). cbn [bind].
  replace (o + len a + 3) with (o + (len a + Z.of_nat 3)) by lia. erewrite (B 3%nat) by (try reflexivity; lia). cbn [bind].
  f_equal. apply le32_value, Hz.
Qed.

Lemma cstr_at t n rest : Forall (fun c => 0 < c < 256) t -> (1 <= n)%nat -> cstr (map Some (t ++ repeat 0 n) ++ rest) = Ok t.
Proof.
  intros H Hn. induction H as [|c t Hc Ht IH]; cbn.
  - destruct n; [lia|]. reflexivity.
  - destruct (Z.eqb_spec c 0); [lia|]. cbn in IH. rewrite IH. reflexivity.
Qed.

Definition path_of (o l : Z) : option Z := if l =? 0 then None else Some (o + 16).
Definition name_at (buf : list (option Z)) (path : option Z) (name : option (list Z)) : Prop :=
  match path, name with
  | None, None => True
  | Some p, Some t => cstr (skipn (Z.to_nat p) buf) = Ok t
  | _, _ => False
  end.

Lemma s32_mod z : in_s32 z -> s32 (z mod 2^32) = z.
Proof.
  intros H. unfold s32. rewrite Z.add_mod_idemp_l by lia. fold (s32 z). apply s32_id, H.
Qed.

Lemma parse_step buf o n e p : at_buf buf o n (e :: p) ->
  exists l, 0 <= l /\ 16 + l <= n /\ rd_u32 buf (o + 12) = Ok l /\ (exists wd, rd_u32 buf o = Ok wd /\ s32 wd = e_wd e) /\
    rd_u32 buf (o + 4) = Ok (e_mask e) /\ rd_u32 buf (o + 8) = Ok (e_cookie e) /\
    name_at buf (path_of o l) (e_name e) /\ at_buf buf (o + (16 + l)) (n - (16 + l)) p.
Proof.
  intros (Ho & Hm & d & rest & H & He & Hn). inversion He as [|? f ? d' Hwd Hmask Hcookie Hf Hd]; subst. clear He.
  assert (Hfl : len f mod 16 = 0 /\ 0 <= len f < 2^32).
  { split; [|split; [apply len_nonneg|]]; destruct (e_name e); cbn in Hf; try (subst f; reflexivity); destruct Hf as (? & ? & ? & ? & ? & ?); auto. }
  destruct Hfl as [Hf16 Hf32].
  exists (len f). split; [lia|]. split.
  { rewrite !len_app. pose proof (len_nonneg d'). change (len (le32 (e_wd e mod 2^32))) with 4. change (len (le32 (e_mask e))) with 4.
    change (len (le32 (e_cookie e))) with 4. change (len (le32 (len f))) with 4. lia. }
  assert (M : forall j, j mod 4 = 0 -> (o + j) mod 4 = 0).
  { intros j Hj. rewrite Z.add_mod, Hm, Hj by lia. reflexivity. }
  split.
  { apply (rd_u32_at buf o (le32 (e_wd e mod 2^32) ++ le32 (e_mask e) ++ le32 (e_cookie e)) (len f) (f ++ d') rest); auto; try (apply M; reflexivity); try (rewrite H, <- !app_assoc; reflexivity); apply Z.mod_pos_bound; lia. }
  split.
  { exists (e_wd e mod 2^32). split; [|apply s32_mod, Hwd]. replace o with (o + len (@nil Z)) by (cbn; lia).
    apply (rd_u32_at buf o [] _ (le32 (e_mask e) ++ le32 (e_cookie e) ++ le32 (len f) ++ f ++ d') rest); auto; try (apply M; reflexivity); try (rewrite H, <- !app_assoc; reflexivity); apply Z.mod_pos_bound; lia. }
  split.
  { apply (rd_u32_at buf o (le32 (e_wd e mod 2^32)) _ (le32 (e_cookie e) ++ le32 (len f) ++ f ++ d') rest); auto; try (apply M; reflexivity); try (rewrite H, <- !app_assoc; reflexivity); apply Z.mod_pos_bound; lia. }
  split.
  { apply (rd_u32_at buf o (le32 (e_wd e mod 2^32) ++ le32 (e_mask e)) _ (le32 (len f) ++ f ++ d') rest); auto; try (apply M; reflexivity); try (rewrite H, <- !app_assoc; reflexivity); apply Z.mod_pos_bound; lia. }
  assert (K : skipn (Z.to_nat (o + 16)) buf = map Some (f ++ d') ++ rest).
  { replace (Z.to_nat (o + 16)) with (16 + Z.to_nat o)%nat by lia. rewrite <- skipn_skipn', H. reflexivity. }
  split.
  { unfold path_of, name_at. destruct (e_name e) as [t|]; cbn in Hf.
    - destruct Hf as (Ht & k & Hk & -> & _). destruct (Z.eqb_spec (len (t ++ repeat 0 k)) 0) as [E|E].
      + rewrite len_app in E. unfold len at 2 in E. rewrite repeat_length in E. pose proof (len_nonneg t). lia.
      + rewrite K. rewrite map_app, <- app_assoc. apply cstr_at; auto.
    - subst f. cbn. auto. }
  split; [lia|]. split.
  { rewrite Z.add_assoc. rewrite Z.add_mod, (M 16) by (reflexivity || lia).
    assert (len f mod 4 = 0) as ->; [|reflexivity].
    pose proof (Z.div_mod (len f) 16). pose proof (Z.div_mod (len f) 4). rewrite Hf16 in *.
    replace (len f) with (0 + (len f / 16 * 4) * 4) by lia. rewrite Z.mod_add by lia. reflexivity. }
  exists d', rest. split; [|split; [exact Hd|]].
  - replace (Z.to_nat (o + (16 + len f))) with (length f + Z.to_nat (o + 16))%nat by (unfold len in *; lia).
    rewrite <- skipn_skipn', K, map_app, <- app_assoc. rewrite skipn_app, skipn_all2 by (rewrite map_length; lia).
    rewrite map_length, Nat.sub_diag. reflexivity.
  - rewrite !len_app. change (len (le32 (e_wd e mod 2^32))) with 4. change (len (le32 (e_mask e))) with 4.
    change (len (le32 (e_cookie e))) with 4. change (len (le32 (len f))) with 4. lia.
Qed.

Lemma parse_end buf o n : at_buf buf o n [] -> n = 0.
Proof. intros (_ & _ & d & rest & _ & H & <-). inversion H. reflexivity. Qed.
Lemma parse_start buf d p : len d <= len buf -> encodes p d -> at_buf (map Some d ++ skipn (length d) buf) 0 (len d) p.
Proof. intros H He. split; [lia|]. split; [reflexivity|]. exists d, (skipn (length d) buf). auto. Qed.
Lemma parse_pos buf o n e p : at_buf buf o n (e :: p) -> n >? 0 = true.
Proof. intros H. destruct (parse_step _ _ _ _ _ H) as (l & ? & ? & _). lia. Qed.
