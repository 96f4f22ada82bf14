From Coq Require Import ZArith List Bool Lia ZifyBool ZifyNat.
From Verif Require Import Lib AllocModel AllocProofs PayloadModel PayloadSpec PayloadProofs RelocModel.
Import ListNotations.
Open Scope Z_scope.
Ltac Zify.zify_post_hook ::= idtac.

(* ---------- bytes of dwords ---------- *)
Lemma of_le_le_bytes n v : of_le (le_bytes n v) = v mod 256 ^ Z.of_nat n.
Proof.
  revert v; induction n as [|n IH]; intros v; cbn [le_bytes of_le fold_right].
  - rewrite Z.mod_1_r. reflexivity.
  - fold (of_le (le_bytes n (v / 256))). rewrite IH.
    rewrite Nat2Z.inj_succ, Z.pow_succ_r by lia.
    rewrite Z.rem_mul_r by (try apply Z.pow_pos_nonneg; lia). reflexivity.
Qed.

Definition is_byte (b : Z) := 0 <= b < 256.

Lemma le_bytes_of_le bs : Forall is_byte bs -> le_bytes (length bs) (of_le bs) = bs.
Proof.
  induction bs as [|b bs IH]; intros H; cbn [length le_bytes of_le fold_right]; auto.
  inversion H; subst. fold (of_le bs). unfold is_byte in *.
  replace (b + 256 * of_le bs) with (b + of_le bs * 256) by lia.
  rewrite Z.mod_add, Z.mod_small, Z.div_add, Z.div_small, Z.add_0_l by lia. f_equal. auto.
Qed.

Lemma write4_length data p bs : (p + 4 <= length data)%nat -> length bs = 4%nat ->
  length (write4 data p bs) = length data.
Proof. intros H Hb. unfold write4. rewrite !app_length, firstn_length_le, skipn_length by lia. lia. Qed.

Lemma write4_nth data p bs k : (p + 4 <= length data)%nat -> length bs = 4%nat ->
  nth_error (write4 data p bs) k =
  if (Nat.leb p k && Nat.ltb k (p + 4))%bool then nth_error bs (k - p) else nth_error data k.
Proof.
  intros H Hb. unfold write4.
  destruct (Nat.leb_spec p k), (Nat.ltb_spec k (p + 4)); cbn [andb].
  - rewrite nth_error_app2; rewrite firstn_length_le by lia; [|lia]. rewrite nth_error_app1 by lia. reflexivity.
  - rewrite nth_error_app2; rewrite firstn_length_le by lia; [|lia]. rewrite nth_error_app2 by lia.
    rewrite nth_error_skipn'. f_equal; lia.
  - rewrite nth_error_app1 by (rewrite firstn_length_le; lia). rewrite nth_error_firstn'.
    destruct (Nat.ltb_spec k p); [reflexivity|lia].
  - lia.
Qed.

Lemma dword_bytes (data : list Z) (p : nat) : (p + 4 <= length data)%nat ->
  exists a b c d, firstn 4 (skipn p data) = [a; b; c; d] /\
    nth_error data p = Some a /\ nth_error data (p + 1) = Some b /\
    nth_error data (p + 2) = Some c /\ nth_error data (p + 3) = Some d.
Proof.
  intros H. assert (L : length (firstn 4 (skipn p data)) = 4%nat) by (rewrite firstn_length, skipn_length; lia).
  destruct (firstn 4 (skipn p data)) as [|a [|b [|c [|d [|e r]]]]] eqn:E; try discriminate.
  exists a, b, c, d. split; auto.
  assert (G : forall j, (j < 4)%nat -> nth_error data (p + j) = nth_error [a; b; c; d] j).
  { intros j Hj. rewrite <- E. rewrite nth_error_firstn', nth_error_skipn'.
    destruct (Nat.ltb_spec j 4); [reflexivity|lia]. }
  pose proof (G 0%nat ltac:(lia)) as G0. rewrite Nat.add_0_r in G0.
  repeat split; auto; apply G; lia.
Qed.

(* two lists that agree on the 4 bytes at p read the same dword *)
Lemma read_dword_ext d1 d2 p q :
  (p + 4 <= length d1)%nat -> (q + 4 <= length d2)%nat ->
  (forall j, (j < 4)%nat -> nth_error d1 (p + j) = nth_error d2 (q + j)) ->
  read_dword d1 p = read_dword d2 q.
Proof.
  intros H1 H2 H. unfold read_dword.
  destruct (dword_bytes d1 p H1) as (a & b & c & d & -> & A0 & A1 & A2 & A3).
  destruct (dword_bytes d2 q H2) as (a' & b' & c' & d' & -> & B0 & B1 & B2 & B3).
  pose proof (H 0%nat ltac:(lia)) as G0. pose proof (H 1%nat ltac:(lia)) as G1.
  pose proof (H 2%nat ltac:(lia)) as G2. pose proof (H 3%nat ltac:(lia)) as G3.
  rewrite !Nat.add_0_r in G0. congruence.
Qed.

Lemma read_write4 data p v : (p + 4 <= length data)%nat ->
  read_dword (write4 data p (le_bytes 4 v)) p = v mod 2^32.
Proof.
  intros H. unfold read_dword.
  assert (E : firstn 4 (skipn p (write4 data p (le_bytes 4 v))) = le_bytes 4 v).
  { apply nth_error_ext. intros k. rewrite nth_error_firstn', nth_error_skipn'.
    rewrite write4_nth by (auto; apply le_bytes_length).
    destruct (Nat.ltb_spec k 4).
    - destruct (Nat.leb_spec p (p + k)), (Nat.ltb_spec (p + k) (p + 4)); cbn [andb]; try lia. f_equal; lia.
    - symmetry. apply nth_error_None. rewrite le_bytes_length. lia. }
  rewrite E, of_le_le_bytes. reflexivity.
Qed.

Lemma write4_other data p v q : (p + 4 <= length data)%nat -> (q + 4 <= length data)%nat ->
  (q + 4 <= p \/ p + 4 <= q)%nat -> read_dword (write4 data p (le_bytes 4 v)) q = read_dword data q.
Proof.
  intros H Hq Hd. apply read_dword_ext; auto.
  - rewrite write4_length; auto.
  - intros j Hj. rewrite write4_nth by (auto; apply le_bytes_length).
    destruct (Nat.leb_spec p (q + j)), (Nat.ltb_spec (q + j) (p + 4)); cbn [andb]; auto. lia.
Qed.

(* ---------- relocation loops ---------- *)
Definition apart (p q : nat) : Prop := (q + 4 <= p \/ p + 4 <= q)%nat.

Lemma reloc_fold v ps : forall data,
  NoDup ps -> (forall p, In p ps -> (p + 4 <= length data)%nat /\ (p mod 4 = 0)%nat) ->
  let d' := fold_left (reloc1 v) ps data in
  length d' = length data /\
  (forall p, In p ps -> read_dword d' p = (read_dword data p + v) mod 2^32) /\
  (forall q, (q + 4 <= length data)%nat -> (forall p, In p ps -> apart p q) -> read_dword d' q = read_dword data q) /\
  (forall k, (forall p, In p ps -> ~ (p <= k < p + 4)%nat) -> nth_error d' k = nth_error data k).
Proof.
  induction ps as [|p ps IH]; intros data Hnd Hb; cbn [fold_left].
  - repeat split; auto. intros p [].
  - inversion Hnd; subst. destruct (Hb p ltac:(left; auto)) as [Bp Ap].
    set (d1 := reloc1 v data p).
    assert (L1 : length d1 = length data) by (apply write4_length; [auto|apply le_bytes_length]).
    destruct (IH d1) as (L & A & B & C); auto.
    { intros q Hq. rewrite L1. apply Hb. right; auto. }
    assert (AP : forall q, In q ps -> apart q p).
    { intros q Hq. assert (q <> p) by congruence. destruct (Hb q ltac:(right; auto)) as [_ Aq].
      unfold apart. zify. Z.to_euclidean_division_equations. lia. }
    split; [congruence|]. split; [|split].
    + intros q [<-|Hq].
      * rewrite B; [|lia|auto]. apply read_write4; auto.
      * rewrite A by auto. do 2 f_equal. apply write4_other; auto; [apply Hb; right; auto|].
        destruct (AP q Hq); lia.
    + intros q Hq Hap. rewrite B.
      * apply write4_other; auto. destruct (Hap p ltac:(left; auto)); lia.
      * lia.
      * intros p' Hp'. apply Hap. right; auto.
    + intros k Hk. rewrite C by (intros p' Hp'; apply Hk; right; auto).
      unfold d1, reloc1. rewrite write4_nth by (auto; apply le_bytes_length).
      destruct (Nat.leb_spec p k), (Nat.ltb_spec k (p + 4)); cbn [andb]; auto.
      exfalso. apply (Hk p); [left; auto|lia].
Qed.

(* modes the two tables can express *)
Definition modes_ok (objs : list obj) : Prop :=
  Forall (fun o => Forall (fun pr => r_mode (snd pr) = 0 \/ r_mode (snd pr) = 1 \/ r_mode (snd pr) = 4)
                          (rels_at 0 (all_items (ob_ops o)))) objs.

Lemma rels_at_shift is : forall c1 c2, map snd (rels_at c1 is) = map snd (rels_at c2 is).
Proof. induction is as [|[?|?|?] r IH]; intros; cbn [rels_at map]; auto. f_equal; auto. Qed.

(* byte k of object n is part of a dword item at p, or of a literal *)
Lemma relocated_payload objs offs s base :
  all_aligned objs -> modes_ok objs ->
  construct_payload objs = Ok (offs, s) -> base mod 4 = 0 ->
  let l := combine objs offs in
  let mem := relocate base (b_prt s) (b_ort s) (b_data s) in
  length mem = length (b_data s) /\
  (forall n p r, obj_rel l n p r -> read_dword mem p = (r_off r + r_mode r * (base / 4)) mod 2^32) /\
  (forall n k v, obj_byte l n k v -> (forall m p r, obj_rel l m p r -> ~ (p <= k < p + 4)%nat) ->
     nth_error mem k = Some v).
Proof.
  intros HA HM HC HB l mem.
  destruct (construct_payload_spec objs offs s HA HC) as (HL & Hbyte & _ & Hprt & Hort & Np & No & Hal & Hdis).
  fold l in Hbyte, Hprt, Hort, Hal, Hdis.
  assert (Hin : forall n p r, obj_rel l n p r -> (p + 4 <= length (b_data s))%nat).
  { intros n p r H. destruct (obj_rel_byte _ _ _ _ 3 H ltac:(lia)) as (v & Hv & _).
    apply Hbyte in Hv. apply nth_error_Some_lt in Hv. lia. }
  assert (Hapart : forall n p r n' p' r', obj_rel l n p r -> obj_rel l n' p' r' -> p <> p' -> apart p p').
  { intros n p r n' p' r' H H' Hne. unfold apart.
    destruct (Nat.lt_ge_cases p' (p + 4)) as [H1|H1]; [|right; lia].
    destruct (Nat.lt_ge_cases p (p' + 4)) as [H2|H2]; [|left; lia].
    exfalso.
    destruct (Nat.eq_dec n n') as [<-|Hn].
    - destruct H as (o & off & E & I), H' as (o' & off' & E' & I'). rewrite E in E'. injection E' as <- <-.
      clear -I I' H1 H2 Hne.
      set (is := all_items (ob_ops o)) in *. set (c := Z.to_nat off) in *. clearbody is c. clear o.
      revert c I I'. induction is as [|i rest IH]; intros c I I'; [destruct I|].
      destruct i as [bs|r0|m]; cbn [rels_at] in I, I'; eauto.
      destruct (rels_sorted rest (c + 4)) as [_ F]. rewrite Forall_forall in F.
      destruct I as [E|I], I' as [E'|I'].
      + congruence.
      + injection E as -> ->. specialize (F _ I'). cbn in F. lia.
      + injection E' as -> ->. specialize (F _ I). cbn in F. lia.
      + eauto.
    - set (k := Nat.max p p').
      destruct (obj_rel_byte _ _ _ _ (k - p) H ltac:(unfold k; lia)) as (v & Hv & _).
      destruct (obj_rel_byte _ _ _ _ (k - p') H' ltac:(unfold k; lia)) as (w & Hw & _).
      replace (p + (k - p))%nat with k in Hv by (unfold k; lia).
      replace (p' + (k - p'))%nat with k in Hw by (unfold k; lia).
      eapply Hdis; eauto. }
  assert (Hsame : forall n p r n' r', obj_rel l n p r -> obj_rel l n' p r' -> r = r').
  { intros n p r n' r' H H'. destruct (Nat.eq_dec n n') as [<-|Hn].
    - destruct H as (o & off & E & I), H' as (o' & off' & E' & I'). rewrite E in E'. injection E' as <- <-.
      destruct (rels_sorted (all_items (ob_ops o)) (Z.to_nat off)) as [ND _].
      clear -I I' ND. induction (rels_at _ _) as [|[q x] xs IH]; [destruct I|].
      cbn [map fst] in ND. inversion ND; subst.
      destruct I as [E|I], I' as [E'|I'].
      + congruence.
      + injection E as -> ->. exfalso. apply H1. change p with (fst (p, r')). apply in_map. auto.
      + injection E' as -> ->. exfalso. apply H1. change p with (fst (p, r)). apply in_map. auto.
      + auto.
    - destruct (obj_rel_byte _ _ _ _ 0 H ltac:(lia)) as (v & Hv & _).
      destruct (obj_rel_byte _ _ _ _ 0 H' ltac:(lia)) as (w & Hw & _). exfalso. eapply Hdis; eauto. }
  assert (Bp : forall p, In p (b_prt s) -> (p + 4 <= length (b_data s))%nat /\ (p mod 4 = 0)%nat).
  { intros p H. apply Hprt in H. destruct H as (n & r & H & Hm). split; [eapply Hin; eauto|eapply Hal; eauto; lia]. }
  assert (Bo : forall p, In p (b_ort s) -> (p + 4 <= length (b_data s))%nat /\ (p mod 4 = 0)%nat).
  { intros p H. apply Hort in H. destruct H as (n & r & H & Hm). split; [eapply Hin; eauto|eapply Hal; eauto; lia]. }
  unfold mem, relocate.
  destruct (reloc_fold (base / 4) (b_prt s) (b_data s) Np Bp) as (L1 & A1 & C1 & D1).
  set (d1 := fold_left _ (b_prt s) _) in *.
  destruct (reloc_fold base (b_ort s) d1 No) as (L2 & A2 & C2 & D2).
  { intros p H. rewrite L1. auto. }
  set (d2 := fold_left _ (b_ort s) _) in *.
  split; [congruence|]. split.
  - intros n p r H.
    assert (Hr0 : read_dword (b_data s) p = r_off r mod 2^32).
    { unfold read_dword.
      destruct (dword_bytes (b_data s) p) as (a & b & c & d & E & E0 & E1 & E2 & E3); [eapply Hin; eauto|].
      assert (EL : [a; b; c; d] = le_bytes 4 (r_off r)).
      { apply nth_error_ext. intros j. destruct (Nat.lt_ge_cases j 4) as [Hj|Hj].
        - destruct (obj_rel_byte _ _ _ _ j H Hj) as (v & Hv & Ev). apply Hbyte in Hv. rewrite Ev, <- Hv.
          destruct j as [|[|[|[|j]]]]; try lia; cbn [nth_error]; rewrite ?Nat.add_0_r; auto.
        - rewrite !(proj2 (nth_error_None _ _)); auto; rewrite ?le_bytes_length; cbn; lia. }
      rewrite E, EL, of_le_le_bytes. reflexivity. }
    assert (Hmode : r_mode r = 0 \/ r_mode r = 1 \/ r_mode r = 4).
    { destruct H as (o & off & E & I). apply nth_error_combine in E. destruct E as [E _].
      apply nth_error_In in E. unfold modes_ok in HM. rewrite Forall_forall in HM. specialize (HM _ E).
      rewrite Forall_forall in HM.
      assert (I' : In r (map snd (rels_at (Z.to_nat off) (all_items (ob_ops o))))).
      { change r with (snd (p, r)). apply in_map. auto. }
      rewrite (rels_at_shift _ _ 0) in I'. apply in_map_iff in I'. destruct I' as ([q r'] & <- & I').
      apply (HM _ I'). }
    assert (Hno : forall tb m, (forall p', In p' tb <-> exists n' r', obj_rel l n' p' r' /\ r_mode r' = m) ->
              r_mode r <> m -> forall p', In p' tb -> apart p' p).
    { intros tb m Htb Hm p' Hp'. apply Htb in Hp'. destruct Hp' as (n' & r' & H' & Em).
      eapply Hapart; eauto. intros ->. rewrite (Hsame _ _ _ _ _ H H') in Hm. auto. }
    destruct Hmode as [E|[E|E]].
    + rewrite C2; [|rewrite L1; eapply Hin; eauto|apply (Hno _ _ Hort); lia].
      rewrite C1; [|eapply Hin; eauto|apply (Hno _ _ Hprt); lia].
      rewrite Hr0, E. f_equal; lia.
    + rewrite C2; [|rewrite L1; eapply Hin; eauto|apply (Hno _ _ Hort); lia].
      rewrite A1 by (apply Hprt; eauto). rewrite Hr0, E, Z.add_mod_idemp_l by lia. f_equal; lia.
    + rewrite A2 by (apply Hort; eauto).
      rewrite C1; [|eapply Hin; eauto|apply (Hno _ _ Hprt); lia].
      rewrite Hr0, E, Z.add_mod_idemp_l by lia. f_equal.
      pose proof (Z.div_mod base 4). lia.
  - intros n k v Hb Hk. rewrite D2, D1.
    + eapply Hbyte; eauto.
    + intros p Hp. apply Hprt in Hp. destruct Hp as (m & r & H & _). eapply Hk; eauto.
    + intros p Hp. apply Hort in Hp. destruct Hp as (m & r & H & _). eapply Hk; eauto.
Qed.

(* A pack field with another mode is stored without any relocation entry. *)
Definition bad_mode_obj : obj := mkobj [WPack [(4, mkrloc 8 2)]; WSpace 4] 8.
Lemma bad_mode_unrelocated :
  exists offs s, construct_payload [bad_mode_obj] = Ok (offs, s) /\
    obj_rel (combine [bad_mode_obj] offs) 0 0 (mkrloc 8 2) /\
    read_dword (relocate 4096 (b_prt s) (b_ort s) (b_data s)) 0 <> (8 + 2 * (4096 / 4)) mod 2^32.
Proof.
  exists [0], (mkpb 8 [8;0;0;0;0;0;0;0] [] []). split; [vm_compute; reflexivity|]. split.
  - exists bad_mode_obj, 0. split; [reflexivity|]. vm_compute. auto.
  - vm_compute. discriminate.
Qed.

(* ---------- address algebra ---------- *)
Fixpoint den (A : Z) (e : cex) : Z :=
  match e with
  | XAtom => A
  | XAdd e c => den A e + c
  | XSub e c => den A e - c
  | XRSub c e => c - den A e
  | XMul e c => den A e * c
  | XDiv e c => den A e / c
  | XNeg e => - den A e
  end.

(* coefficient of A/4 and constant part, over the integers *)
Fixpoint mpart (e : cex) : Z :=
  match e with
  | XAtom => 4 | XAdd e _ | XSub e _ => mpart e
  | XRSub _ e | XNeg e => - mpart e
  | XMul e c => mpart e * c | XDiv e c => mpart e / c
  end.
Fixpoint cpart (e : cex) : Z :=
  match e with
  | XAtom => 0 | XAdd e c => cpart e + c | XSub e c => cpart e - c
  | XRSub c e => c - cpart e | XNeg e => - cpart e
  | XMul e c => cpart e * c | XDiv e c => cpart e / c
  end.

(* coefficients stay in i32; dividends stay in i32 *)
Fixpoint fits (e : cex) : bool :=
  i32_ok (mpart e) &&
  match e with
  | XAtom => true
  | XAdd e _ | XSub e _ | XRSub _ e | XMul e _ | XNeg e => fits e
  | XDiv e _ => fits e && i32_ok (cpart e)
  end.

Lemma s32_range x : - 2^31 <= s32 x < 2^31.
Proof. unfold s32. pose proof (Z.mod_pos_bound (x + 2^31) (2^32)). lia. Qed.
Lemma s32_id x : - 2^31 <= x < 2^31 -> s32 x = x.
Proof. intros H. unfold s32. rewrite Z.mod_small; lia. Qed.
Lemma s32_cong x : s32 x mod 2^32 = x mod 2^32.
Proof. unfold s32. rewrite Zminus_mod_idemp_l. f_equal; lia. Qed.
Lemma cong_s32 x y : x mod 2^32 = y mod 2^32 -> s32 x = s32 y.
Proof. intros H. unfold s32. f_equal. rewrite Z.add_mod, H, <- Z.add_mod by lia. reflexivity. Qed.

Lemma div_lin m b c k : k <> 0 -> m mod k = 0 -> (m * b + c) / k = m / k * b + c / k.
Proof.
  intros Hk Hm. rewrite (Z.div_mod m k) at 1 by auto. rewrite Hm, Z.add_0_r.
  replace (k * (m / k) * b + c) with (c + (m / k * b) * k) by lia.
  rewrite Z.div_add by auto. lia.
Qed.

Lemma build_spec e : forall v, build e = Some v -> fits e = true ->
  cmode v = mpart e /\ - 2^31 <= coff v < 2^31 /\ coff v mod 2^32 = cpart e mod 2^32 /\
  (forall b, den (4 * b) e = mpart e * b + cpart e).
Proof.
  induction e as [|e IH c|e IH c|c e IH|e IH c|e IH c|e IH]; intros v Hb Hf; cbn [build fits] in *;
    apply andb_true_iff in Hf; destruct Hf as [Hm Hf]; unfold i32_ok in Hm.
  - injection Hb as <-. cbn. repeat split; try lia.
  - destruct (build e) as [u|]; [|discriminate]. destruct (i64_ok c); [|discriminate]. injection Hb as <-.
    destruct (IH u eq_refl Hf) as (A & B & C & D). cbn [cmode coff c_mode c_off mpart cpart den].
    split; [auto|]. split; [apply s32_range|]. split.
    + rewrite s32_cong, Z.add_mod, s32_cong, C, <- Z.add_mod by lia. reflexivity.
    + intros b. rewrite D. lia.
  - destruct (build e) as [u|]; [|discriminate]. destruct (i64_ok c); [|discriminate]. injection Hb as <-.
    destruct (IH u eq_refl Hf) as (A & B & C & D). cbn [cmode coff c_mode c_off mpart cpart den].
    split; [auto|]. split; [apply s32_range|]. split.
    + rewrite s32_cong, Zminus_mod, s32_cong, C, <- Zminus_mod by lia. reflexivity.
    + intros b. rewrite D. lia.
  - destruct (build e) as [u|]; [|discriminate]. destruct (i64_ok c); [|discriminate]. injection Hb as <-.
    destruct (IH u eq_refl Hf) as (A & B & C & D). cbn [cmode coff c_mode c_off mpart cpart den] in *.
    split; [rewrite A; apply s32_id; lia|]. split; [apply s32_range|]. split.
    + rewrite s32_cong, Zminus_mod, s32_cong, C, <- Zminus_mod by lia. reflexivity.
    + intros b. rewrite D. lia.
  - destruct (build e) as [u|]; [|discriminate]. destruct (i32_ok c); [|discriminate]. injection Hb as <-.
    destruct (IH u eq_refl Hf) as (A & B & C & D). cbn [cmode coff c_mode c_off mpart cpart den] in *.
    split; [rewrite A; apply s32_id; lia|]. split; [apply s32_range|]. split.
    + rewrite s32_cong, Z.mul_mod, C, <- Z.mul_mod by lia. reflexivity.
    + intros b. rewrite D. lia.
  - destruct (build e) as [u|]; [|discriminate].
    destruct (negb (i32_ok c) || (c =? 0)) eqn:Ec; [discriminate|].
    destruct (negb (cmode u =? 0) && negb (cmode u mod c =? 0)) eqn:Ed; [discriminate|].
    injection Hb as <-. apply andb_true_iff in Hf. destruct Hf as [Hf Hc]. unfold i32_ok in Hc.
    destruct (IH u eq_refl Hf) as (A & B & C & D). cbn [cmode coff c_mode c_off mpart cpart den] in *.
    assert (Eq : coff u = cpart e).
    { rewrite <- (s32_id (coff u)) by auto. rewrite (cong_s32 _ _ C). apply s32_id. lia. }
    assert (Hmod : mpart e mod c = 0).
    { rewrite A in Ed. destruct (mpart e =? 0) eqn:E0; [|lia]. apply Z.eqb_eq in E0. rewrite E0. apply Z.mod_0_l. lia. }
    split; [rewrite A; apply s32_id; lia|]. split; [apply s32_range|]. split.
    + rewrite s32_cong, Eq. reflexivity.
    + intros b. rewrite D. apply div_lin; [lia|auto].
  - destruct (build e) as [u|]; [|discriminate]. injection Hb as <-.
    destruct (IH u eq_refl Hf) as (A & B & C & D). cbn [cmode coff c_mode c_off mpart cpart den] in *.
    split; [rewrite A; apply s32_id; lia|]. split; [apply s32_range|]. split.
    + rewrite s32_cong. rewrite <- (Z.sub_0_l (coff u)), <- (Z.sub_0_l (cpart e)), Zminus_mod, C, <- Zminus_mod. reflexivity.
    + intros b. rewrite D. lia.
Qed.

(* value of a relocatable integer when the payload is loaded at 4*b *)
Definition rvalue (r : rloc) (b : Z) : Z := (r_off r + r_mode r * b) mod 2^32.

Lemma evaluate_sound e v o r :
  build e = Some v -> fits e = true ->
  o mod 4 = 0 -> i32_ok (o * mpart e) = true -> i32_ok (4 * mpart e) = true ->
  evaluate (mkrloc o 4) v = Some r ->
  forall b, rvalue r b = den (o + 4 * b) e mod 2^32.
Proof.
  intros Hb Hf Ho Hr Hr4 He b. destruct (build_spec e v Hb Hf) as (A & B & C & D).
  replace (o + 4 * b) with (4 * (o / 4 + b)) by (pose proof (Z.div_mod o 4); lia).
  rewrite D. unfold rvalue, i32_ok in *.
  destruct v as [|c]; cbn [evaluate] in He.
  - injection He as <-. cbn [r_off r_mode cmode coff] in *. rewrite <- A.
    replace (4 * (o / 4 + b) + cpart e) with (o + 4 * b + cpart e) by (pose proof (Z.div_mod o 4); lia).
    rewrite (Z.add_mod (o + 4 * b) (cpart e)), <- C by lia.
    change (0 mod 2^32) with 0. rewrite Z.add_0_r, Z.mod_mod by lia. reflexivity.
  - cbn [cmode coff] in *. destruct (c_mode c =? 0) eqn:E0.
    + injection He as <-. cbn [r_off r_mode]. apply Z.eqb_eq in E0. rewrite <- A, E0, !Z.mul_0_l, Z.add_0_r, Z.add_0_l. auto.
    + destruct (negb (c_base c)); [discriminate|]. cbn [r_off r_mode] in He. rewrite A in He.
      rewrite !s32_id in He by lia.
      destruct ((4 * mpart e =? 0) || _) eqn:Ediv; [|discriminate]. match type of He with Some ?x = _ => assert (Hr0 : r = x) by congruence end; subst r. cbn [r_off r_mode].
      assert (E4m : 4 * mpart e / 4 = mpart e) by (rewrite Z.mul_comm; apply Z.div_mul; lia). rewrite E4m.
      assert (Ed : o * mpart e / 4 = o / 4 * mpart e).
      { rewrite (Z.div_mod o 4) at 1 by lia. rewrite Ho, Z.add_0_r.
        replace (4 * (o / 4) * mpart e) with ((o / 4 * mpart e) * 4) by lia. apply Z.div_mul; lia. }
      rewrite <- Z.add_mod_idemp_l, s32_cong, Z.add_mod_idemp_l by lia. rewrite Ed.
      replace (o / 4 * mpart e + c_off c + mpart e * b) with (mpart e * (o / 4 + b) + c_off c) by lia.
      rewrite Z.add_mod, C, <- Z.add_mod by lia. reflexivity.
Qed.

(* e % c is the true remainder of the final address *)
Lemma cmod_sound e v c q :
  build e = Some v -> fits e = true -> i32_ok (cpart e) = true -> cmod v c = Some q ->
  forall A, A mod 4 = 0 -> q = den A e mod c.
Proof.
  intros Hb Hf Hc H A HA. destruct (build_spec e v Hb Hf) as (M & B & C & D). unfold i32_ok in Hc.
  unfold cmod in H. destruct (c =? 0) eqn:Ec; [discriminate|].
  destruct (negb (cmode v =? 4) || negb (4 mod c =? 0)) eqn:E; [discriminate|]. injection H as <-.
  assert (Eq : coff v = cpart e).
  { rewrite <- (s32_id (coff v)) by auto. rewrite (cong_s32 _ _ C). apply s32_id. lia. }
  replace A with (4 * (A / 4)) by (pose proof (Z.div_mod A 4); lia). rewrite D, Eq.
  assert (M4 : mpart e = 4) by lia. rewrite M4.
  assert (E4 : 4 = c * (4 / c)) by (pose proof (Z.div_mod 4 c); lia).
  rewrite E4. replace (c * (4 / c) * (A / (c * (4 / c))) + cpart e) with (cpart e + (4 / c * (A / (c * (4 / c)))) * c) by lia.
  symmetry. apply Z.mod_add. lia.
Qed.

(* EPD of an address expression is its dword index, at every load address *)
Lemma epd_expr_sound e v o r :
  build (epd_expr e) = Some v -> fits (epd_expr e) = true ->
  o mod 4 = 0 -> i32_ok (o * mpart (epd_expr e)) = true -> i32_ok (4 * mpart (epd_expr e)) = true ->
  evaluate (mkrloc o 4) v = Some r ->
  forall b, rvalue r b = ((den (o + 4 * b) e - 0x58A364) / 4) mod 2^32.
Proof.
  intros Hb Hf Ho H1 H2 He b. rewrite (evaluate_sound _ _ _ _ Hb Hf Ho H1 H2 He b).
  cbn [epd_expr den]. do 2 f_equal. 
Qed.

Definition ex_expr : cex := epd_expr (XAdd (XAtom) 348).
Example ex_expr_ok :
  exists v r, build ex_expr = Some v /\ fits ex_expr = true /\ i32_ok (4096 * mpart ex_expr) = true /\ evaluate (mkrloc 4096 4) v = Some r /\ r_mode r = 1.
Proof. do 2 eexists. split; [reflexivity|]. split; [reflexivity|]. split; [reflexivity|]. split; reflexivity. Qed.

(* RlocInt operators that are sound ... *)
Lemma rl_add_sound a b' k : rvalue (rl_add a b') k = (rvalue a k + rvalue b' k) mod 2^32.
Proof.
  unfold rvalue, rl_add; cbn [r_off r_mode].
  rewrite <- Z.add_mod by lia.
  rewrite Z.add_mod, s32_cong, (Z.mul_mod (s32 _)), s32_cong, <- Z.mul_mod, <- Z.add_mod by lia. f_equal; lia.
Qed.
Lemma rl_sub_sound a b' k : rvalue (rl_sub a b') k = (rvalue a k - rvalue b' k) mod 2^32.
Proof.
  unfold rvalue, rl_sub; cbn [r_off r_mode].
  rewrite <- Zminus_mod by lia.
  rewrite Z.add_mod, s32_cong, (Z.mul_mod (s32 _)), s32_cong, <- Z.mul_mod, <- Z.add_mod by lia. f_equal; lia.
Qed.
Lemma rl_mul_sound a c k : rvalue (rl_mul a c) k = (rvalue a k * c) mod 2^32.
Proof.
  unfold rvalue, rl_mul; cbn [r_off r_mode].
  rewrite Z.mul_mod_idemp_l by lia.
  rewrite Z.add_mod, s32_cong, (Z.mul_mod (s32 _)), s32_cong, <- Z.mul_mod, <- Z.add_mod by lia. f_equal; lia.
Qed.
Lemma rl_or_sound a c r k :
  0 <= c -> r_mode a = 0 \/ (r_mode a = 4) -> rl_or a c = Some r ->
  0 <= r_off a + r_mode a * k < 2^32 -> rvalue r k = Z.lor (r_off a + r_mode a * k) c mod 2^32.
Proof.
  intros Hc Hm H Hr. unfold rl_or in H.
  destruct (negb (r_mode a =? 0) && negb (r_mode a =? 4)); [discriminate|].
  destruct ((r_mode a =? 4) && negb (Z.land c 3 =? c)) eqn:E; [discriminate|]. injection H as <-.
  unfold rvalue; cbn [r_off r_mode]. destruct Hm as [Hm|Hm]; rewrite Hm in *.
  - rewrite !Z.mul_0_l, !Z.add_0_r. reflexivity.
  - assert (Hc3 : Z.land c 3 = c) by lia. f_equal.
    (* lor with c only touches the two low bits; 4*k has none *)
    assert (G : forall x, Z.lor x c = 4 * (x / 4) + Z.lor (x mod 4) c).
    { intros x. apply Z.bits_inj'. intros n Hn.
      assert (Hlt : Z.lor (x mod 4) c < 4 /\ 0 <= Z.lor (x mod 4) c).
      { split.
        - assert (Z.lor (x mod 4) c = (Z.lor (x mod 4) c) mod 2^2).
          { apply Z.bits_inj'. intros m Hm'. destruct (Z.lt_ge_cases m 2).
            - rewrite Z.mod_pow2_bits_low by lia. reflexivity.
            - rewrite Z.mod_pow2_bits_high by lia. rewrite Z.lor_spec.
              change 4 with (2^2). rewrite Z.mod_pow2_bits_high by lia.
              rewrite <- Hc3, Z.land_spec. change 3 with (Z.ones 2). rewrite Z.ones_spec_high by lia.
              rewrite andb_false_r. reflexivity. }
          pose proof (Z.mod_pos_bound (Z.lor (x mod 4) c) (2^2)). lia.
        - apply Z.lor_nonneg. split; [apply Z.mod_pos_bound; lia|auto]. }
      destruct (Z.lt_ge_cases n 2) as [Hn2|Hn2].
      - rewrite Z.add_comm, Z.mul_comm. change 4 with (2^2) at 2.
        rewrite <- (Z.mod_pow2_bits_low (_ + _) 2 n) by lia.
        rewrite Z.mod_add by lia. rewrite Z.mod_pow2_bits_low by lia. rewrite !Z.lor_spec.
        change 4 with (2^2). rewrite Z.mod_pow2_bits_low by lia. reflexivity.
      - rewrite Z.lor_spec. rewrite <- Hc3 at 1. rewrite Z.land_spec. change 3 with (Z.ones 2).
        rewrite Z.ones_spec_high by lia. rewrite andb_false_r, orb_false_r.
        replace n with (n - 2 + 2) by lia. rewrite <- !Z.shiftr_spec by lia. rewrite !Z.shiftr_div_pow2 by lia.
        change (2^2) with 4. rewrite (Z.mul_comm 4), Z.add_comm, Z.div_add by lia.
        rewrite (Z.div_small (Z.lor _ _)) by lia. rewrite Z.add_0_l. reflexivity. }
    rewrite (G (r_off a)), (G (r_off a + 4 * k)).
    replace (r_off a + 4 * k) with (r_off a + k * 4) by lia. rewrite Z.div_add, Z.mod_add by lia. lia.
Qed.

(* ... and those that are not: negation, masking, reflected or, division *)
Lemma rl_neg_unsound : exists a r k, rl_neg a = Some r /\ rvalue r k <> (- rvalue a k) mod 2^32.
Proof. exists (mkrloc 8 4). eexists. exists 1024. split; [reflexivity|]. vm_compute. discriminate. Qed.
Lemma rl_and_unsound : exists a c r k, rl_and a c = Some r /\ rvalue r k <> Z.land (rvalue a k) c.
Proof. exists (mkrloc 8 4), 3. eexists. exists 1024. split; [reflexivity|]. vm_compute. discriminate. Qed.
Lemma rl_ror_unsound : exists a c r k, rl_ror a c = Some r /\ rvalue r k <> Z.lor c (rvalue a k).
Proof. exists (mkrloc 8 0), 3. eexists. exists 0. split; [reflexivity|]. vm_compute. discriminate. Qed.
Lemma rl_floordiv_unsound : exists a c r k, rl_floordiv a c = Some r /\ rvalue r k <> rvalue a k / c.
Proof. exists (mkrloc 8 4), 8. eexists. exists 1024. split; [reflexivity|]. vm_compute. discriminate. Qed.
(* a Forward to an unaligned address makes % unsound *)
Lemma cmod_forward_unaligned :
  exists (o b q : Z), cmod Raw 4 = Some q /\ q <> (o + 4 * b) mod 4.
Proof. exists 1, 1024, 0. split; [reflexivity|]. vm_compute. discriminate. Qed.
