(* Multiplication and division by constants: the function bodies compute. *)
From Coq Require Import ZArith Lia Bool List Permutation ZifyBool ZifyNat.
From Verif Require Import Lib Word Machine MachineProofs VarModel VarSpec VarProofs SeqProofs NonSeqProofs
  OpsModel OpsSpec OpsBase OpsProofs OpsArith OpsBits OpsShift OpsFinal FuncModel FuncSpec FuncProofs FuncBody MulModel MulArith.
Import ListNotations.
Open Scope Z_scope.

(* nothing outside the listed cells changed *)
Definition fr (cs : list Z) (m m' : mem) : Prop := forall b, (forall c, In c cs -> idx c <> idx b) -> get m' b = get m b.
Lemma fr_refl cs m : fr cs m m.
Proof. intros b _. reflexivity. Qed.
Lemma fr_trans cs m1 m2 m3 : fr cs m1 m2 -> fr cs m2 m3 -> fr cs m1 m3.
Proof. intros A B b H. rewrite B, A by exact H. reflexivity. Qed.
Lemma fr_incl cs cs' m m' : incl cs cs' -> fr cs m m' -> fr cs' m m'.
Proof. intros H A b Hb. apply A. intros c Hc. apply Hb, H, Hc. Qed.
Lemma fr_upd cs m a x : In a cs -> fr cs m (upd m a x).
Proof. intros H b Hb. apply get_upd_ne. apply Hb. exact H. Qed.
Lemma fr_tmp cs m m' b : fr cs m m' -> ~ tmp [] cs b -> get m' b = get m b.
Proof. intros H Hb. apply H. intros c Hc E. apply Hb. right. exists c. auto. Qed.

Section W.
Variable w : world.
Hypothesis Hw : world_ok w.
Notation vars := (W_vars w).
Variable same same_u : dst -> dst -> bool.
Hypothesis Hsame : forall a b, same a b = true -> u32 (dst_epd a) = u32 (dst_epd b).
Variable perm : list pair -> list pair.
Hypothesis Hperm : forall l, Permutation (perm l) l.

Lemma fr_keeps cs m m' : (forall c, In c cs -> valcell w c) -> fr cs m m' -> keeps w m m'.
Proof.
  intros Hc H v Hv [O1 O2]. split; rewrite H; auto; intros c Hin; apply (Hc c Hin); auto; discriminate.
Qed.

Lemma guard_tmp f vs cells : fn_wf w f -> incl vs vars -> (forall v, In v vs -> ~ In v (fn_rets f)) ->
  (forall c, In c cells -> valcell w c /\ idx c <> idx (fn_nptr f)) -> forall c, In c (guard f) -> ~ tmp vs cells c.
Proof.
  intros Hf Hi Hd Hc c Hg. assert (Hcases : c = fn_nptr f \/ exists r fl, In r (fn_rets f) /\ fl <> FVal /\ c = vc r fl).
  { destruct Hg as [<-|Hg]; [auto|]. apply in_flat_map in Hg. destruct Hg as (r & Hr & Hg).
    cbn in Hg. destruct Hg as [<-|[<-|[<-|[]]]]; right; eexists _, _; (split; [exact Hr|split; [|reflexivity]]); discriminate. }
  destruct Hcases as [->|(r & fl & Hr & Hfl & ->)]; intros [(v & g & H1 & H2 & H3)|(d & H1 & H2)].
  - apply (fw_nptr _ _ Hf) in H3; auto.
  - apply (Hc d H1). congruence.
  - destruct (wo_sep w Hw r v fl g (fw_rvars _ _ Hf r Hr) (Hi v H1) H3) as [<- _]. apply (Hd r H1 Hr).
  - destruct (Hc d H1) as [[_ Q] _]. apply (Q r fl (fw_rvars _ _ Hf r Hr) Hfl). congruence.
Qed.

Lemma ret_nptr f r : fn_wf w f -> In r vars -> idx (val r) <> idx (fn_nptr f).
Proof. intros Hf Hr E. apply (proj2 (fw_nptr _ _ Hf) r FVal Hr). congruence. Qed.

(* ---------- straight code ---------- *)
Lemma straight_length T : forall l k, length (straight T k l) = length l.
Proof. induction l as [|[cs acts] l IH]; intros k; [reflexivity|]. cbn [straight length]. rewrite IH. reflexivity. Qed.
Lemma straight_app T : forall l1 l2 k, straight T k (l1 ++ l2) = straight T k l1 ++ straight T (k + length l1) l2.
Proof.
  induction l1 as [|[cs acts] l1 IH]; intros l2 k; cbn [app straight length]; [rewrite Nat.add_0_r; reflexivity|].
  rewrite IH. do 3 f_equal. lia.
Qed.
(* one trigger of straight code *)
Lemma straight_one T k cs acts m b m' :
  placed w T k (straight T k [(cs, acts)]) -> conds_are m cs b ->
  (b = true -> acts_do (W_prot w) m acts m') -> (b = false -> m' = m) ->
  runs w (lbl T k, m) (lbl T (k + 1), m').
Proof.
  intros Hp Hc Ht Hf. eapply run_cond; [apply placed_one; exact Hp|reflexivity|exact Hc|exact Ht|exact Hf|].
  cbn [rd]. rewrite u32_lbl. f_equal. lia.
Qed.

(* ---------- constant multiplication ---------- *)
Lemma mul_steps T a ret number : In a vars -> In ret vars -> a <> ret ->
  forall n i k m, (i + n <= 32)%nat ->
  let l := flat_map (mul_step a ret number) (seq i n) in
  placed w T k (straight T k l) ->
  exists m', runs w (lbl T k, m) (lbl T (k + length l), m') /\
    get m' (val ret) = u32 (get m (val ret) + number * field (get m (val a)) (Z.of_nat i) (Z.of_nat n)) /\ fr [val ret] m m'.
Proof.
  intros Ha Hr Hne. induction n as [|n IH]; intros i k m Hn l Hp.
  - exists m. cbn. rewrite Nat.add_0_r. split; [apply steps_refl|]. split; [|apply fr_refl].
    change (Z.of_nat 0) with 0. rewrite field_0, Z.mul_0_r, Z.add_0_r. symmetry. apply u32_get.
  - unfold l in *. clear l. cbn [seq flat_map] in *. rewrite straight_app in Hp. apply placed_app in Hp. rewrite straight_length in Hp.
    destruct Hp as [P1 P2].
    assert (H1 : exists m1, runs w (lbl T k, m) (lbl T (k + length (mul_step a ret number i)), m1) /\
       get m1 (val ret) = u32 (get m (val ret) + number * (2 ^ Z.of_nat i * b2z (Z.testbit (get m (val a)) (Z.of_nat i)))) /\ fr [val ret] m m1).
    { unfold mul_step in *. destruct (Z.eqb_spec (u32 (2 ^ Z.of_nat i * number)) 0) as [E|E].
      - exists m. cbn [length]. rewrite Nat.add_0_r. split; [apply steps_refl|]. split; [|apply fr_refl].
        rewrite <- u32_add_r. replace (number * (2 ^ Z.of_nat i * b2z (Z.testbit (get m (val a)) (Z.of_nat i))))
          with (2 ^ Z.of_nat i * number * b2z (Z.testbit (get m (val a)) (Z.of_nat i))) by ring.
        rewrite <- u32_mul_l, E, Z.mul_0_l. change (u32 0) with 0. rewrite Z.add_0_r. symmetry. apply u32_get.
      - pose proof (conds_one_MX m (val a) AtLeast 1 (2 ^ Z.of_nat i) (wo_plain w Hw a FVal Ha)) as Hc.
        cbn [do_cmp] in Hc. rewrite test_bit in Hc by lia.
        pose (m1 := if Z.testbit (get m (val a)) (Z.of_nat i) then upd m (val ret) (do_mod Add (get m (val ret)) (u32 (2 ^ Z.of_nat i * number))) else m).
        exists m1. split; [|split].
        + eapply straight_one; [exact P1|exact Hc| |]; intros Q; unfold m1; rewrite Q; [|reflexivity].
          apply do_cons_M; [apply (wo_plain w Hw); auto|apply (wo_prot w Hw); auto|apply do_nil].
        + unfold m1. destruct (Z.testbit (get m (val a)) (Z.of_nat i)); cbn [b2z].
          * rewrite get_upd_eq. cbn [do_mod]. rewrite u32_add_r, u32_idem. f_equal. ring.
          * rewrite !Z.mul_0_r, Z.add_0_r. symmetry. apply u32_get.
        + unfold m1. destruct (Z.testbit _ _); [apply fr_upd; cbn; auto|apply fr_refl]. }
    destruct H1 as (m1 & A1 & B1 & C1).
    destruct (IH (S i) (k + length (mul_step a ret number i))%nat m1) as (m2 & A2 & B2 & C2); [lia|exact P2|].
    exists m2. rewrite app_length, Nat.add_assoc. split; [eapply runs_trans; eauto|]. split; [|eapply fr_trans; eauto].
    rewrite B2, B1, u32_add_l. rewrite (C1 (val a)).
    + replace (Z.of_nat (S n)) with (Z.of_nat n + 1) by lia. rewrite (field_S _ (Z.of_nat i)) by lia.
      replace (Z.of_nat (S i)) with (Z.of_nat i + 1) by lia. f_equal. ring.
    + intros c [<-|[]]. apply (vsep w Hw); auto.
Qed.

Theorem mulf_computes T a ret number len :
  let body := mulf_body same same_u T a ret number in
  let f := mkfunc T len [DVar a] [ret] in
  len = length body -> fn_wf w f -> a <> ret -> placed w T 0 body ->
  computes w f (fun _ => True) (tmp [] [val ret]) (fun l => [u32 (hd 0 l * number)]).
Proof.
  intros body f Hlen Hf Hne Hp.
  assert (Ha : In a vars) by (apply (fw_args _ _ Hf (DVar a)); cbn; auto).
  assert (Hr : In ret vars) by (apply (fw_rvars _ _ Hf); cbn; auto).
  apply computes_intro.
  { apply guard_tmp; [exact Hf|intros x []|intros x []|]. intros c [<-|[]]. split; [apply (valcell_val w Hw); auto|apply ret_nptr; auto]. }
  intros m _ Ho Hrr. unfold body, mulf_body, andthen in Hp. apply placed_app in Hp. destruct Hp as [P1 P2].
  destruct (v_assign_does w Hw same same_u Hsame T 0 ret (SConst 0) m Hr I P1) as (m1 & A1 & B1 & K1).
  destruct (mul_steps T a ret number Ha Hr Hne 32 0 _ m1 ltac:(lia) P2) as (m2 & A2 & B2 & C2).
  assert (F1 : fr [val ret] m m1).
  { intros b Hb. apply (changes_frame _ _ _ _ b B1); [|exact Hb]. intros [(v & g & [] & _)|(c & [] & _)]. }
  exists m2. split; [|split; [exact I|split; [|split]]].
  - eapply runs_trans; [exact A1|]. replace (lbl (fn_T f) (fn_len f)) with (lbl T (0 + length (v_assign same same_u T 0 ret (SConst 0)) + length (flat_map (mul_step a ret number) (seq 0 32)))); [exact A2|].
    unfold f. cbn [fn_T fn_len]. rewrite Hlen. unfold body, mulf_body, andthen. rewrite app_length, straight_length. reflexivity.
  - intros b. apply fr_tmp. eapply fr_trans; eauto.
  - cbn [fn_rets fn_args f map hd dst_epd]. f_equal. rewrite B2. rewrite (proj1 B1 _ _ (or_introl eq_refl)). cbn [sval].
    rewrite (F1 (val a)) by (intros c [<-|[]]; apply (vsep w Hw); auto).
    change (Z.of_nat 0) with 0. change (Z.of_nat 32) with 32. rewrite field_all by apply get_range.
    change (u32 0) with 0. rewrite Z.add_0_l. f_equal. apply Z.mul_comm.
  - apply fr_keeps with (cs := [val ret]); [|eapply fr_trans; eauto]. intros c [<-|[]]. apply (valcell_val w Hw); auto.
Qed.

(* ---------- constant division ---------- *)
Definition oq (q : option Z) : list Z := match q with Some q => [val q] | None => [] end.
Lemma rev_seq_S n : rev (seq 0 (S n)) = n :: rev (seq 0 n).
Proof. rewrite seq_S, rev_app_distr. reflexivity. Qed.

Lemma div_steps T a q number : In a vars -> 0 < number ->
  match q with Some q => In q vars /\ q <> a | None => True end ->
  forall n k m, (n <= 32)%nat -> get m (val a) < number * 2 ^ Z.of_nat n ->
  let l := flat_map (div_step a q number) (rev (seq 0 n)) in
  placed w T k (straight T k l) ->
  exists m', runs w (lbl T k, m) (lbl T (k + length l), m') /\
    get m' (val a) = get m (val a) mod number /\
    match q with Some q => get m' (val q) = u32 (get m (val q) + get m (val a) / number) | None => True end /\
    fr (val a :: oq q) m m'.
Proof.
  intros Ha Hnum Hq. induction n as [|n IH]; intros k m Hn Hlt l Hp.
  - exists m. cbn. rewrite Nat.add_0_r. pose proof (get_range m (val a)). change (2 ^ Z.of_nat 0) with 1 in Hlt.
    split; [apply steps_refl|]. split; [rewrite Z.mod_small; lia|]. split; [|apply fr_refl].
    destruct q; auto. rewrite Z.div_small by lia. rewrite Z.add_0_r. symmetry. apply u32_get.
  - unfold l in *. clear l. rewrite rev_seq_S in *. cbn [flat_map] in *. rewrite straight_app in Hp. apply placed_app in Hp. rewrite straight_length in Hp.
    destruct Hp as [P1 P2]. set (A := get m (val a)) in *. pose proof (get_range m (val a)) as HA. fold A in HA.
    set (N := 2 ^ Z.of_nat n). assert (HN : 0 < N) by (apply pow2_pos; lia).
    assert (HNS : 2 ^ Z.of_nat (S n) = 2 * N) by (unfold N; replace (Z.of_nat (S n)) with (1 + Z.of_nat n) by lia; rewrite Z.pow_add_r by lia; reflexivity).
    rewrite HNS in Hlt.
    assert (H1 : exists m1, runs w (lbl T k, m) (lbl T (k + length (div_step a q number n)), m1) /\
       (let c := if (N * number <=? A) && (N * number <? 2^32) then 1 else 0 in
        get m1 (val a) = A - c * (N * number) /\
        match q with Some q => get m1 (val q) = u32 (get m (val q) + c * N) | None => True end) /\ fr (val a :: oq q) m m1).
    { unfold div_step in *. fold N in P1 |- *. cbv zeta in *. destruct (Z.leb_spec (2^32) (N * number)) as [E|E].
      - exists m. cbn [length]. rewrite Nat.add_0_r. replace (N * number <? 2^32) with false by lia. rewrite andb_false_r.
        split; [apply steps_refl|]. split; [|apply fr_refl]. split; [fold A; lia|]. destruct q; auto. rewrite Z.add_0_r. symmetry. apply u32_get.
      - replace (N * number <? 2^32) with true by lia. rewrite andb_true_r. cbn [length].
        pose proof (conds_one_M m (val a) AtLeast (N * number) (wo_plain w Hw a FVal Ha)) as Hc.
        cbn [do_cmp] in Hc. rewrite (u32_small (N * number)) in Hc by nia. fold A in Hc.
        destruct (N * number <=? A) eqn:Ec.
        + pose (ma := upd m (val a) (do_mod Subtract A (u32 (N * number)))).
          pose (m1 := match q with Some q => upd ma (val q) (do_mod Add (get ma (val q)) (u32 N)) | None => ma end).
          assert (Hgq : forall q0, q = Some q0 -> get ma (val q0) = get m (val q0)).
          { intros q0 E0. subst q. apply get_upd_ne. apply (vsep w Hw); tauto || (left; intros ->; tauto). }
          assert (Hga : get ma (val a) = A - N * number).
          { unfold ma. rewrite get_upd_eq. cbn [do_mod]. rewrite (u32_small (N * number)) by nia. rewrite Z.max_r by lia. apply u32_small. nia. }
          exists m1. split; [|split].
          * eapply straight_one; [exact P1|exact Hc| |discriminate]. intros _.
            apply do_cons_M; [apply (wo_plain w Hw); auto|apply (wo_prot w Hw); auto|]. fold A. fold ma.
            unfold m1. destruct q as [q0|]; [|apply do_nil]. apply do_cons_M; [apply (wo_plain w Hw); tauto|apply (wo_prot w Hw); tauto|apply do_nil].
          * rewrite !Z.mul_1_l. unfold m1. destruct q as [q0|].
            -- split; [rewrite get_upd_ne; [exact Hga|]|].
               ++ destruct Hq as [Hq1 Hq2]. apply (vsep w Hw); auto.
               ++ rewrite get_upd_eq, (Hgq q0 eq_refl). cbn [do_mod]. rewrite u32_add_r, u32_idem. reflexivity.
            -- split; [exact Hga|exact I].
          * unfold m1. destruct q as [q0|].
            -- apply fr_trans with (m2 := ma); apply fr_upd; cbn [oq In]; auto.
            -- apply fr_upd. cbn [In]; auto.
        + exists m. split; [|split; [|apply fr_refl]].
          * eapply straight_one; [exact P1|exact Hc|discriminate|reflexivity].
          * split; [fold A; lia|]. destruct q; auto. rewrite Z.mul_0_l, Z.add_0_r. symmetry. apply u32_get. }
    destruct H1 as (m1 & A1 & B1 & C1). cbv zeta in B1. destruct B1 as [B1 D1].
    destruct (IH (k + length (div_step a q number n))%nat m1) as (m2 & A2 & B2 & D2 & C2); [lia| |exact P2|].
    { rewrite B1. fold N. destruct (Z.leb_spec (N * number) A), (Z.ltb_spec (N * number) (2^32)); cbn [andb]; nia. }
    exists m2. rewrite app_length, Nat.add_assoc. split; [eapply runs_trans; eauto|].
    set (c := if (N * number <=? A) && (N * number <? 2^32) then 1 else 0) in *.
    replace (A - c * (N * number)) with (A - (c * N) * number) in B1 by ring.
    destruct (div_step_down A (c * N) number Hnum) as [Q1 Q2].
    split; [rewrite B2, B1; exact Q2|]. split; [|eapply fr_trans; eauto].
    destruct q as [q0|]; auto. rewrite D2, D1, B1, Q1, u32_add_l. f_equal. lia.
Qed.

Lemma div_steps2 T a q p : In a vars -> In q vars -> q <> a -> 0 <= p ->
  forall n k m, (n <= 32)%nat ->
  let l := flat_map (div_step2 a q (2 ^ p)) (rev (seq 0 n)) in
  placed w T k (straight T k l) ->
  exists m', runs w (lbl T k, m) (lbl T (k + length l), m') /\
    get m' (val q) = u32 (get m (val q) + (get m (val a) / 2 ^ p) mod 2 ^ Z.of_nat n) /\ fr [val q] m m'.
Proof.
  intros Ha Hq Hne Hp0. induction n as [|n IH]; intros k m Hn l Hp.
  - exists m. cbn. rewrite Nat.add_0_r. split; [apply steps_refl|]. split; [|apply fr_refl].
    change (2 ^ Z.of_nat 0) with 1. rewrite Z.mod_1_r, Z.add_0_r. symmetry. apply u32_get.
  - unfold l in *. clear l. rewrite rev_seq_S in *. cbn [flat_map] in *. rewrite straight_app in Hp. apply placed_app in Hp. rewrite straight_length in Hp.
    destruct Hp as [P1 P2]. set (A := get m (val a)) in *. pose proof (get_range m (val a)) as HA. fold A in HA.
    set (bit := Z.testbit A (Z.of_nat n + p)).
    assert (H1 : exists m1, runs w (lbl T k, m) (lbl T (k + length (div_step2 a q (2 ^ p) n)), m1) /\
       get m1 (val q) = u32 (get m (val q) + 2 ^ Z.of_nat n * b2z bit) /\ fr [val q] m m1).
    { unfold div_step2 in *. rewrite <- Z.pow_add_r in * by lia. cbv zeta in *.
      destruct (Z.leb_spec (2^32) (2 ^ (Z.of_nat n + p))) as [E|E].
      - exists m. cbn [length]. rewrite Nat.add_0_r. split; [apply steps_refl|]. split; [|apply fr_refl].
        assert (Hb : bit = false).
        { unfold bit. apply (bounded_bits 32); try lia. apply Z.pow_le_mono_r_iff in E; lia. }
        rewrite Hb. cbn [b2z]. rewrite Z.mul_0_r, Z.add_0_r. symmetry. apply u32_get.
      - assert (Hlt : Z.of_nat n + p < 32) by (apply Z.pow_lt_mono_r_iff in E; lia).
        pose proof (conds_one_MX m (val a) AtLeast 1 (2 ^ (Z.of_nat n + p)) (wo_plain w Hw a FVal Ha)) as Hc.
        cbn [do_cmp] in Hc. rewrite test_bit in Hc by lia. fold A in Hc. fold bit in Hc.
        pose (m1 := if bit then upd m (val q) (do_mod Add (get m (val q)) (u32 (2 ^ Z.of_nat n))) else m).
        exists m1. split; [|split].
        + eapply straight_one; [exact P1|exact Hc| |]; intros Q; unfold m1; rewrite Q; [|reflexivity].
          apply do_cons_M; [apply (wo_plain w Hw); auto|apply (wo_prot w Hw); auto|apply do_nil].
        + unfold m1. destruct bit; cbn [b2z].
          * rewrite get_upd_eq. cbn [do_mod]. rewrite u32_add_r, u32_idem. f_equal. ring.
          * rewrite Z.mul_0_r, Z.add_0_r. symmetry. apply u32_get.
        + unfold m1. destruct bit; [apply fr_upd; cbn; auto|apply fr_refl]. }
    destruct H1 as (m1 & A1 & B1 & C1).
    destruct (IH (k + length (div_step2 a q (2 ^ p) n))%nat m1) as (m2 & A2 & B2 & C2); [lia|exact P2|].
    exists m2. rewrite app_length, Nat.add_assoc. split; [eapply runs_trans; eauto|]. split; [|eapply fr_trans; eauto].
    rewrite B2, B1, u32_add_l. rewrite (C1 (val a)) by (intros c [<-|[]]; apply (vsep w Hw); auto). fold A. f_equal.
    pose proof (pow2_pos (Z.of_nat n) ltac:(lia)). pose proof (pow2_pos p Hp0).
    replace (2 ^ Z.of_nat (S n)) with (2 ^ Z.of_nat n * 2) by (replace (Z.of_nat (S n)) with (Z.of_nat n + 1) by lia; rewrite Z.pow_add_r by lia; reflexivity).
    rewrite Z.rem_mul_r by lia. unfold bit. rewrite testbit_b2z by lia.
    rewrite Z.div_div by lia. rewrite <- Z.pow_add_r by lia. rewrite (Z.add_comm p). ring.
Qed.

Theorem divf_computes T a q number len :
  let body := divf_body same same_u T a q number in
  let f := mkfunc T len [DVar a] [q; a] in
  len = length body -> fn_wf w f -> 0 < number -> placed w T 0 body ->
  computes w f (fun _ => True) (tmp [] [val q; val a]) (fun l => [hd 0 l / number; hd 0 l mod number]).
Proof.
  intros body f Hlen Hf Hnum Hp.
  assert (Ha : In a vars) by (apply (fw_args _ _ Hf (DVar a)); cbn; auto).
  assert (Hr : In q vars) by (apply (fw_rvars _ _ Hf); cbn; auto).
  assert (Hne : q <> a) by (pose proof (fw_rets _ _ Hf) as N; inversion N as [|? ? N1 N2]; cbn in N1; intros ->; tauto).
  apply computes_intro.
  { apply guard_tmp; [exact Hf|intros x []|intros x []|]. intros c [<-|[<-|[]]]; (split; [apply (valcell_val w Hw); auto|apply ret_nptr; auto]). }
  intros m _ Ho Hrr. unfold body, divf_body, andthen in Hp. apply placed_app in Hp. destruct Hp as [P1 P2].
  destruct (v_assign_does w Hw same same_u Hsame T 0 q (SConst 0) m Hr I P1) as (m1 & A1 & B1 & K1).
  assert (F1 : fr [val q] m m1).
  { intros b Hb. apply (changes_frame _ _ _ _ b B1); [|exact Hb]. intros [(v & g & [] & _)|(c & [] & _)]. }
  assert (E1 : get m1 (val q) = 0) by (rewrite (proj1 B1 _ _ (or_introl eq_refl)); reflexivity).
  assert (E2 : get m1 (val a) = get m (val a)) by (apply F1; intros c [<-|[]]; apply (vsep w Hw); auto).
  pose proof (get_range m (val a)) as HA.
  assert (Hlen' : lbl (fn_T f) (fn_len f) = lbl T (0 + length body)) by (unfold f; cbn [fn_T fn_len]; rewrite Hlen; reflexivity).
  rewrite Hlen'. unfold body, divf_body, andthen. clear Hlen'. rewrite app_length.
  set (k := (0 + length (v_assign same same_u T 0 q (SConst 0)))%nat) in *.
  assert (H2 : exists m2, runs w (lbl T k, m1) (lbl T (k + length (if is_pow2 number
      then straight T k (flat_map (div_step2 a q number) down32) ++ lv_iand T (k + length (straight T k (flat_map (div_step2 a q number) down32))) (val a) (number - 1)
      else straight T k (flat_map (div_step a (Some q) number) down32))), m2) /\
      get m2 (val q) = get m (val a) / number /\ get m2 (val a) = get m (val a) mod number /\ fr [val q; val a] m1 m2).
  { assert (Hdiv : 0 <= get m (val a) / number < 2^32).
    { split; [apply Z.div_pos; lia|]. apply Z.div_lt_upper_bound; nia. }
    unfold is_pow2 in *. destruct (Z.eqb_spec (Z.land number (number - 1)) 0) as [E|E].
    - apply pow2_log in E; [|exact Hnum]. set (p := Z.log2 number) in *. assert (Hp0 : 0 <= p) by apply Z.log2_nonneg. clearbody p. subst number.
      apply placed_app in P2. destruct P2 as [P2 P3].
      destruct (div_steps2 T a q p Ha Hr Hne Hp0 32 k m1 ltac:(lia) P2) as (m2 & A2 & B2 & C2).
      rewrite <- straight_length with (T := T) (k := k) in A2.
      destruct (lv_iand_does w T (val a) ((valcell_val w Hw a Ha)) _ (2 ^ p - 1) m2 P3) as (m3 & A3 & B3 & K3).
      assert (F3 : fr [val a] m2 m3).
      { intros b Hb. apply (changes_frame _ _ _ _ b B3); [|exact Hb]. intros [(v & g & [] & _)|(c & [] & _)]. }
      exists m3. split; [|split; [|split]].
      + rewrite app_length. eapply runs_trans; [exact A2|]. rewrite Nat.add_assoc. exact A3.
      + rewrite F3 by (intros c [<-|[]]; apply (vsep w Hw); auto). rewrite B2, E1, E2, Z.add_0_l.
        rewrite Z.mod_small by (exact Hdiv). apply u32_small. exact Hdiv.
      + rewrite (proj1 B3 _ _ (or_introl eq_refl)). rewrite C2 by (intros c [<-|[]]; apply (vsep w Hw); auto). rewrite E2.
        destruct (Z.leb_spec 32 p) as [Hbig|Hsm].
        * rewrite Z.mod_small. 2:{ split; [lia|]. eapply Z.lt_le_trans; [apply HA|]. apply Z.pow_le_mono_r; lia. }
          replace (u32 (2 ^ p - 1)) with (Z.ones 32); [rewrite Z.land_ones by lia; apply Z.mod_small; lia|].
          symmetry. transitivity (u32 (-1)); [|reflexivity]. apply u32_eq with (k := 2 ^ (p - 32)).
          rewrite <- Z.pow_add_r by lia. replace (p - 32 + 32) with p by ring. lia.
        * assert (2 ^ p < 2 ^ 32) by (apply Z.pow_lt_mono_r; lia). pose proof (pow2_pos p Hp0).
          rewrite u32_small by lia. rewrite Z.sub_1_r, <- Z.ones_equiv. apply Z.land_ones. exact Hp0.
      + eapply fr_trans; [eapply fr_incl; [|exact C2]|eapply fr_incl; [|exact F3]]; intros x [<-|[]]; cbn; auto.
    - destruct (div_steps T a (Some q) number Ha Hnum (conj Hr Hne) 32 k m1 ltac:(lia)) as (m2 & A2 & B2 & D2 & C2).
      { rewrite E2. change (Z.of_nat 32) with 32. nia. } { exact P2. }
      rewrite <- straight_length with (T := T) (k := k) in A2.
      exists m2. split; [exact A2|]. split; [|split].
      + rewrite D2, E1, E2, Z.add_0_l. apply u32_small. exact Hdiv.
      + rewrite B2, E2. reflexivity.
      + eapply fr_incl; [|exact C2]. intros x [<-|[<-|[]]]; cbn; auto. }
  destruct H2 as (m2 & A2 & B2 & D2 & C2).
  exists m2. split; [|split; [exact I|split; [|split]]].
  - eapply runs_trans; [exact A1|]. rewrite Nat.add_assoc. fold k. exact A2.
  - intros b. apply fr_tmp. eapply fr_trans; [eapply fr_incl; [|exact F1]|exact C2]. intros x [<-|[]]; cbn; auto.
  - cbn [fn_rets fn_args f map hd dst_epd]. rewrite B2, D2. reflexivity.
  - apply fr_keeps with (cs := [val q; val a]).
    + intros c [<-|[<-|[]]]; apply (valcell_val w Hw); auto.
    + eapply fr_trans; [eapply fr_incl; [|exact F1]|exact C2]. intros x [<-|[]]; cbn; auto.
Qed.

Lemma fn_end T f (body : list trig) : fn_T f = T -> fn_len f = length body -> lbl (fn_T f) (fn_len f) = lbl T (0 + length body).
Proof. intros -> ->. reflexivity. Qed.
Lemma does_fr T k code a x m : does w T k code (tmp [] []) m [(a, x)] ->
  exists m', runs w (lbl T k, m) (lbl T (k + length code), m') /\ get m' a = x /\ fr [a] m m' /\ keeps w m m'.
Proof.
  intros (m' & A & B & K). exists m'. split; [exact A|]. split; [apply (proj1 B); left; reflexivity|]. split; [|exact K].
  intros b Hb. apply (changes_frame _ _ _ _ b B); [|exact Hb]. intros [(v & g & [] & _)|(c & [] & _)].
Qed.

(* ---- quotient ---- *)
Theorem quotf_computes T a q number len :
  let body := quotf_body same same_u T a q number in
  let f := mkfunc T len [DVar a] [q] in
  len = length body -> fn_wf w f -> a <> q -> 0 < number -> placed w T 0 body ->
  computes w f (fun _ => True) (tmp [] [val q; val a]) (fun l => [hd 0 l / number]).
Proof.
  intros body f Hlen Hf Hne Hnum Hp.
  assert (Ha : In a vars) by (apply (fw_args _ _ Hf (DVar a)); cbn; auto).
  assert (Hr : In q vars) by (apply (fw_rvars _ _ Hf); cbn; auto).
  apply computes_intro.
  { apply guard_tmp; [exact Hf|intros x []|intros x []|]. intros c [<-|[<-|[]]]; (split; [apply (valcell_val w Hw); auto|apply ret_nptr; auto]). }
  intros m _ Ho Hrr. rewrite (fn_end T f body) by auto. unfold body, quotf_body, andthen in Hp |- *. apply placed_app in Hp. destruct Hp as [P1 P2].
  destruct (does_fr _ _ _ _ _ _ (v_assign_does w Hw same same_u Hsame T 0 q (SConst 0) m Hr I P1)) as (m1 & A1 & E1 & F1 & _).
  assert (E2 : get m1 (val a) = get m (val a)) by (apply F1; intros c [<-|[]]; apply (vsep w Hw); auto).
  pose proof (get_range m (val a)) as HA.
  destruct (div_steps T a (Some q) number Ha Hnum (conj Hr (not_eq_sym Hne)) 32 _ m1 ltac:(lia) ltac:(rewrite E2; change (Z.of_nat 32) with 32; nia) P2)
    as (m2 & A2 & B2 & D2 & C2).
  assert (Hfr : fr [val q; val a] m m2).
  { eapply fr_trans; [eapply fr_incl; [|exact F1]|eapply fr_incl; [|exact C2]]; intros x H; cbn in *; tauto. }
  exists m2. split; [|split; [exact I|split; [|split]]].
  - eapply runs_trans; [exact A1|]. rewrite app_length, straight_length, Nat.add_assoc. exact A2.
  - intros b. apply fr_tmp. exact Hfr.
  - cbn [fn_rets fn_args f map hd dst_epd]. rewrite D2, E1, E2. cbn [sval]. change (u32 0) with 0. rewrite Z.add_0_l. f_equal. apply u32_small.
    split; [apply Z.div_pos; lia|]. apply Z.div_lt_upper_bound; nia.
  - apply fr_keeps with (cs := [val q; val a]); [|exact Hfr]. intros c [<-|[<-|[]]]; apply (valcell_val w Hw); auto.
Qed.

(* one light operation on a variable that is parameter and result *)
Lemma inplace_computes T a len (code : list trig) (g : Z -> Z) :
  let f := mkfunc T len [DVar a] [a] in
  len = length code -> fn_wf w f ->
  (forall m, exists m', runs w (lbl T 0, m) (lbl T (0 + length code), m') /\ get m' (val a) = g (get m (val a)) /\ fr [val a] m m') ->
  computes w f (fun _ => True) (tmp [] [val a]) (fun l => [g (hd 0 l)]).
Proof.
  intros f Hlen Hf H.
  assert (Ha : In a vars) by (apply (fw_args _ _ Hf (DVar a)); cbn; auto).
  apply computes_intro.
  { apply guard_tmp; [exact Hf|intros x []|intros x []|]. intros c [<-|[]]; (split; [apply (valcell_val w Hw); auto|apply ret_nptr; auto]). }
  intros m _ _ _. destruct (H m) as (m' & A & E & F). rewrite (fn_end T f code) by auto.
  exists m'. split; [exact A|]. split; [exact I|]. split; [intros b; apply fr_tmp; exact F|]. split; [cbn; rewrite E; reflexivity|].
  apply fr_keeps with (cs := [val a]); [|exact F]. intros c [<-|[]]; apply (valcell_val w Hw); auto.
Qed.

Theorem quotf2_computes T q number len :
  let body := quotf2_body T q number in
  let f := mkfunc T len [DVar q] [q] in
  len = length body -> fn_wf w f -> 0 < number -> is_pow2 number = true -> placed w T 0 body ->
  computes w f (fun _ => True) (tmp [] [val q]) (fun l => [hd 0 l / number]).
Proof.
  intros body f Hlen Hf Hnum E Hp. assert (Ha : In q vars) by (apply (fw_args _ _ Hf (DVar q)); cbn; auto).
  unfold is_pow2 in E. apply Z.eqb_eq in E. apply pow2_log in E; [|exact Hnum].
  assert (Hp0 : 0 <= Z.log2 number) by apply Z.log2_nonneg.
  apply (inplace_computes T q len body (fun x => x / number) Hlen Hf). intros m.
  destruct (does_fr _ _ _ _ _ _ (lv_irshift_does w T (val q) (valcell_val w Hw q Ha) 0 (Z.log2 number) m Hp0 Hp)) as (m' & A & B & C & _).
  exists m'. split; [exact A|]. split; [|exact C]. rewrite B. rewrite Z.shiftr_div_pow2, <- E by lia. reflexivity.
Qed.

(* ---- remainder ---- *)
Lemma land_mod_pow2 A p : 0 <= A < 2^32 -> 0 <= p -> Z.land A (u32 (2 ^ p - 1)) = A mod 2 ^ p.
Proof.
  intros HA Hp0. destruct (Z.leb_spec 32 p) as [Hbig|Hsm].
  - rewrite Z.mod_small. 2:{ split; [lia|]. eapply Z.lt_le_trans; [apply HA|]. apply Z.pow_le_mono_r; lia. }
    replace (u32 (2 ^ p - 1)) with (Z.ones 32); [rewrite Z.land_ones by lia; apply Z.mod_small; lia|].
    symmetry. transitivity (u32 (-1)); [|reflexivity]. apply u32_eq with (k := 2 ^ (p - 32)).
    rewrite <- Z.pow_add_r by lia. replace (p - 32 + 32) with p by ring. lia.
  - assert (2 ^ p < 2 ^ 32) by (apply Z.pow_lt_mono_r; lia). pose proof (pow2_pos p Hp0).
    rewrite u32_small by lia. rewrite Z.sub_1_r, <- Z.ones_equiv. apply Z.land_ones. exact Hp0.
Qed.
Theorem remf2_computes T a number len :
  let body := remf2_body T a number in
  let f := mkfunc T len [DVar a] [a] in
  len = length body -> fn_wf w f -> 0 < number -> is_pow2 number = true -> placed w T 0 body ->
  computes w f (fun _ => True) (tmp [] [val a]) (fun l => [hd 0 l mod number]).
Proof.
  intros body f Hlen Hf Hnum E Hp. assert (Ha : In a vars) by (apply (fw_args _ _ Hf (DVar a)); cbn; auto).
  unfold is_pow2 in E. apply Z.eqb_eq in E. apply pow2_log in E; [|exact Hnum].
  assert (Hp0 : 0 <= Z.log2 number) by apply Z.log2_nonneg.
  apply (inplace_computes T a len body (fun x => x mod number) Hlen Hf). intros m.
  destruct (does_fr _ _ _ _ _ _ (lv_iand_does w T (val a) (valcell_val w Hw a Ha) 0 (number - 1) m Hp)) as (m' & A & B & C & _).
  exists m'. split; [exact A|]. split; [|exact C]. rewrite B. rewrite E. apply land_mod_pow2; [apply get_range|exact Hp0].
Qed.
Theorem remf_computes T a number len :
  let body := remf_body T a number in
  let f := mkfunc T len [DVar a] [a] in
  len = length body -> fn_wf w f -> 0 < number -> placed w T 0 body ->
  computes w f (fun _ => True) (tmp [] [val a]) (fun l => [hd 0 l mod number]).
Proof.
  intros body f Hlen Hf Hnum Hp. assert (Ha : In a vars) by (apply (fw_args _ _ Hf (DVar a)); cbn; auto).
  apply (inplace_computes T a len body (fun x => x mod number) Hlen Hf). intros m. pose proof (get_range m (val a)).
  destruct (div_steps T a None number Ha Hnum I 32 0 m ltac:(lia) ltac:(change (Z.of_nat 32) with 32; nia) Hp) as (m' & A & B & _ & C).
  exists m'. unfold body, remf_body. rewrite straight_length. auto.
Qed.

(* ---- powers of two ---- *)
Theorem exp2_computes T n ret len :
  let body := exp2_body same same_u T n ret in
  let f := mkfunc T len [DVar n] [ret] in
  len = length body -> fn_wf w f -> n <> ret -> placed w T 0 body ->
  computes w f (fun _ => True) (tmp [] [val ret]) (fun l => [if hd 0 l <? 32 then 2 ^ hd 0 l else 0]).
Proof.
  intros body f Hlen Hf Hne Hp.
  assert (Ha : In n vars) by (apply (fw_args _ _ Hf (DVar n)); cbn; auto).
  assert (Hr : In ret vars) by (apply (fw_rvars _ _ Hf); cbn; auto).
  apply computes_intro.
  { apply guard_tmp; [exact Hf|intros x []|intros x []|]. intros c [<-|[]]; (split; [apply (valcell_val w Hw); auto|apply ret_nptr; auto]). }
  intros m _ Ho Hrr. rewrite (fn_end T f body) by auto. unfold body, exp2_body, andthen in Hp |- *. apply placed_app in Hp. destruct Hp as [P1 P2].
  destruct (does_fr _ _ _ _ _ _ (v_assign_does w Hw same same_u Hsame T 0 ret (SConst 0) m Hr I P1)) as (m1 & A1 & E1 & F1 & _).
  assert (E2 : get m1 (val n) = get m (val n)) by (apply F1; intros c [<-|[]]; apply (vsep w Hw); auto).
  set (stp := fun i => ([CondM (val n) Exactly (Z.of_nat i)], [SetNumber (val ret) (2 ^ Z.of_nat i)])) in *.
  assert (H : forall c i k m, (i + c <= 32)%nat -> placed w T k (straight T k (map stp (seq i c))) ->
    exists m', runs w (lbl T k, m) (lbl T (k + length (map stp (seq i c))), m') /\
      get m' (val ret) = (if (Z.of_nat i <=? get m (val n)) && (get m (val n) <? Z.of_nat (i + c)) then 2 ^ get m (val n) else get m (val ret)) /\ fr [val ret] m m').
  { clear - Hw Ha Hr Hne. induction c as [|c IH]; intros i k m Hc Hp.
    - exists m. cbn. rewrite Nat.add_0_r. split; [apply steps_refl|]. split; [|apply fr_refl].
      replace ((Z.of_nat i <=? get m (val n)) && (get m (val n) <? Z.of_nat (i + 0))) with false by lia. reflexivity.
    - cbn [seq map] in *. change (stp i :: map stp (seq (S i) c)) with ([stp i] ++ map stp (seq (S i) c)) in *.
      rewrite straight_app in Hp. apply placed_app in Hp. destruct Hp as [P1 P2].
      pose (m1 := if get m (val n) =? Z.of_nat i then upd m (val ret) (u32 (2 ^ Z.of_nat i)) else m).
      destruct (IH (S i) (k + 1)%nat m1) as (m2 & A2 & B2 & C2); [lia|exact P2|].
      assert (En : get m1 (val n) = get m (val n)).
      { unfold m1. destruct (_ =? _); [apply get_upd_ne, (vsep w Hw); auto|reflexivity]. }
      exists m2. split; [|split].
      + rewrite app_length, Nat.add_assoc. eapply runs_trans; [|exact A2].
        pose proof (conds_one_M m (val n) Exactly (Z.of_nat i) (wo_plain w Hw n FVal Ha)) as Hcd.
        cbn [do_cmp] in Hcd. rewrite u32_small in Hcd by lia.
        eapply straight_one; [exact P1|exact Hcd| |]; intros Q; unfold m1; rewrite Q; [|reflexivity].
        apply do_cons_M; [apply (wo_plain w Hw); auto|apply (wo_prot w Hw); auto|apply do_nil].
      + rewrite B2, En. unfold m1. destruct (Z.eqb_spec (get m (val n)) (Z.of_nat i)) as [E|E].
        * replace ((Z.of_nat (S i) <=? get m (val n)) && (get m (val n) <? Z.of_nat (S i + c))) with false by lia.
          replace ((Z.of_nat i <=? get m (val n)) && (get m (val n) <? Z.of_nat (i + S c))) with true by lia.
          rewrite get_upd_eq, u32_idem, E. apply u32_small. split; [apply Z.lt_le_incl, pow2_pos; lia|apply Z.pow_lt_mono_r; lia].
        * replace ((Z.of_nat (S i) <=? get m (val n)) && (get m (val n) <? Z.of_nat (S i + c))) with ((Z.of_nat i <=? get m (val n)) && (get m (val n) <? Z.of_nat (i + S c))) by lia.
          reflexivity.
      + eapply fr_trans; [|exact C2]. unfold m1. destruct (_ =? _); [apply fr_upd; cbn; auto|apply fr_refl]. }
  destruct (H 32%nat 0%nat _ m1 ltac:(lia) P2) as (m2 & A2 & B2 & C2).
  assert (Hfr : fr [val ret] m m2) by (eapply fr_trans; eauto).
  exists m2. split; [|split; [exact I|split; [|split]]].
  - eapply runs_trans; [exact A1|]. rewrite app_length, straight_length, Nat.add_assoc. exact A2.
  - intros b. apply fr_tmp. exact Hfr.
  - cbn [fn_rets fn_args f map hd dst_epd]. rewrite B2, E1, E2. cbn [sval]. pose proof (get_range m (val n)).
    change (Z.of_nat (0 + 32)) with 32. change (Z.of_nat 0) with 0. replace (0 <=? get m (val n)) with true by lia. reflexivity.
  - apply fr_keeps with (cs := [val ret]); [|exact Hfr]. intros c [<-|[]]; apply (valcell_val w Hw); auto.
Qed.

(* ---- results without computation ---- *)
Lemma return_computes T x len rets vals (F : Z -> list Z) :
  let f := mkfunc T len [DVar x] rets in
  let body := func_return same same_u perm T 0 f vals in
  len = length body -> fn_wf w f -> ~ In x rets -> length vals = length rets -> incl (vargs vals) [x] ->
  (forall m, map (sval m) vals = F (get m (val x))) -> placed w T 0 body ->
  computes w f (fun _ => True) (tmp [x] (map (fun r => val r) rets)) (fun l => F (hd 0 l)).
Proof.
  intros f body Hlen Hf Hx Hl Hi HF Hp.
  assert (Ha : In x vars) by (apply (fw_args _ _ Hf (DVar x)); cbn; auto).
  pose proof (fw_rvars _ _ Hf) as Hr. cbn [f fn_rets] in Hr.
  apply computes_intro.
  { apply guard_tmp; [exact Hf|intros y [<-|[]]; exact Ha|intros y [<-|[]]; exact Hx|].
    intros c Hc. apply in_map_iff in Hc. destruct Hc as (r & <- & Hin). split; [apply (valcell_val w Hw); auto|apply ret_nptr; auto]. }
  intros m _ Ho Hrr. rewrite (fn_end T f body) by auto.
  destruct (ret_run w Hw same same_u Hsame perm Hperm T 0 f vals m Hr (fw_rets _ _ Hf) Hl) as (m' & A & B & K); auto.
  { intros [c|v] Hin; [exact I|]. assert (Hv : v = x).
    { destruct (Hi v) as [E|[]]; [|auto]. apply in_flat_map. exists (SVar v). cbn; auto. }
    subst v. split; [exact Ha|apply Ho; cbn; auto]. }
  { intros v Hv Hin. destruct (Hi v Hv) as [<-|[]]. contradiction. }
  exists m'. split; [exact A|]. split; [exact I|]. split; [|split; [|exact K]].
  - intros b Hb. apply (changes_frame _ _ _ _ b B).
    + intros H. apply Hb. eapply tmp_sub; [exact Hi| |exact H]. intros y [].
    + intros c Hc E. apply Hb. right. exists c. split; [|auto]. cbn [f fn_rets] in Hc.
      clear - Hc. revert vals Hc. induction rets as [|r rs IH]; intros [|s vals] Hc; try (destruct Hc; fail). cbn [map combine fst] in *.
      destruct Hc as [<-|Hc]; [left; reflexivity|right; eapply IH; eauto].
  - cbn [f fn_rets fn_args map hd dst_epd]. rewrite <- HF. destruct B as [B _]. cbn [f fn_rets] in B. clear - B Hl.
    revert vals B Hl. induction rets as [|r rs IH]; intros [|s vals] B Hl; try discriminate; [reflexivity|]. cbn [map combine] in *.
    f_equal; [apply B; left; reflexivity|]. apply IH; [|cbn in Hl; congruence]. intros a x0 Hin. apply B. right. exact Hin.
Qed.

(* -x *)
Theorem mul_m1_computes T x_r x t ret len :
  let f := mkfunc T len [DVar x] [ret] in
  let body := mul_m1_body same same_u perm T x_r x t f in
  len = length body -> fn_wf w f -> x <> ret -> In t vars -> t <> x -> t <> ret -> placed w T 0 body ->
  computes w f (fun m => ordinary m t) (tmp [x; t] [val x; val t; val ret]) (fun l => [u32 (- hd 0 l)]).
Proof.
  intros f body Hlen Hf Hxr Ht Htx Htr Hp.
  assert (Ha : In x vars) by (apply (fw_args _ _ Hf (DVar x)); cbn; auto).
  assert (Hr : In ret vars) by (apply (fw_rvars _ _ Hf); cbn; auto).
  apply computes_intro.
  { apply guard_tmp; [exact Hf|intros y [<-|[<-|[]]]; auto|intros y [<-|[<-|[]]] [H|[]]; congruence|].
    intros c [<-|[<-|[<-|[]]]]; (split; [apply (valcell_val w Hw); auto|apply ret_nptr; auto]). }
  intros m HI Ho _. rewrite (fn_end T f body) by auto. unfold body, mul_m1_body, andthen in Hp |- *. clear body Hlen.
  assert (Hox : ordinary m x) by (apply Ho; cbn; auto).
  pose proof (v_neg_does w Hw same same_u Hsame T 0 x_r x t m Ha Hox Ht Htx) as Hn.
  assert (Hrr : snd (v_neg same same_u T 0 x_r x t) = x \/ snd (v_neg same same_u T 0 x_r x t) = t) by (destruct x_r; cbn; auto).
  destruct (v_neg same same_u T 0 x_r x t) as [c r]. cbn [snd] in Hrr.
  apply placed_app in Hp. destruct Hp as [P1 P2]. destruct (Hn P1) as (m1 & A1 & B1 & K1).
  assert (Hrv : In r vars) by (destruct Hrr as [->| ->]; auto).
  destruct (ret_run w Hw same same_u Hsame perm Hperm T (0 + length c) f [SVar r] m1) as (m2 & A2 & B2 & K2); auto.
  { intros y [<-|[]]. exact Hr. } { repeat constructor; auto. }
  { intros s [<-|[]]. split; [exact Hrv|]. apply K1; auto. destruct Hrr as [->| ->]; auto. }
  { intros v [<-|[]] [<-|[]]. destruct Hrr; congruence. }
  exists m2. split; [|split; [|split; [|split]]].
  - eapply runs_trans; [exact A1|]. rewrite app_length, Nat.add_assoc. exact A2.
  - apply K2, K1; auto.
  - intros b Hb. rewrite (changes_frame _ _ _ _ b B2).
    + apply (changes_frame _ _ _ _ b B1).
      * intros H. apply Hb. eapply tmp_sub; [| |exact H]; intros y H'; cbn in *; tauto.
      * intros a [<-|[]] E. apply Hb. right. exists (val r). split; [|auto]. destruct Hrr as [->| ->]; cbn; auto.
    + intros H. apply Hb. eapply tmp_sub; [| |exact H]; intros y H'; cbn in H'; [|destruct H']. destruct H' as [<-|[]]. destruct Hrr as [->| ->]; cbn; auto.
    + intros a [<-|[]] E. apply Hb. right. exists (val ret). cbn; auto.
  - cbn [fn_rets fn_args f map hd dst_epd]. rewrite (proj1 B2 (val ret) (get m1 (val r)) (or_introl eq_refl)).
    rewrite (proj1 B1 _ _ (or_introl eq_refl)). reflexivity.
  - eapply keeps_trans; eauto.
Qed.
End W.
