(* Execution of the code that fills variable fields. *)
From Coq Require Import ZArith Lia List Bool ZifyBool ZifyNat.
From Verif Require Import Lib Word Machine MachineProofs VarModel VarSpec VarProofs SeqProofs OpsModel OpsSpec OpsBase PatchModel.
Import ListNotations.
Open Scope Z_scope.

Definition res (p : pair) : rpair := let '(d, md, s) := p in (d, match md with Some x => x | None => SetTo end, s).

Lemma bits_sum v n : 0 <= v -> 0 <= n -> v mod 2^(n + 1) = v mod 2^n + (if Z.testbit v n then 2^n else 0).
Proof.
  intros Hv Hn. rewrite Z.pow_add_r by lia. change (2^1) with 2. rewrite Z.rem_mul_r by lia.
  pose proof (Z.testbit_spec' v n Hn) as B. destruct (Z.testbit v n); cbn [Z.b2z] in B; rewrite <- B; lia.
Qed.
Lemma bit_test v i : 0 <= v < 2^32 -> 0 <= i < 32 -> do_cmp AtLeast (Z.land v (u32 (2^i))) (u32 1) = Z.testbit v i.
Proof.
  intros Hv Hi. assert (2^i < 2^32) by (apply Z.pow_lt_mono_r; lia). assert (0 < 2^i) by (apply Z.pow_pos_nonneg; lia).
  rewrite !u32_small by lia. rewrite Z.land_comm. cbn [do_cmp].
  destruct (Z.testbit v i) eqn:E.
  - assert (Q : Z.land (2^i) v = 2^i).
    { apply Z.bits_inj'. intros j Hj. rewrite Z.land_spec. destruct (Z.eq_dec j i) as [->|N]; [rewrite E; apply andb_true_r|].
      rewrite Z.pow2_bits_false by lia. reflexivity. }
    rewrite Q. lia.
  - assert (Q : Z.land (2^i) v = 0).
    { apply Z.bits_inj'. intros j Hj. rewrite Z.land_spec, Z.bits_0. destruct (Z.eq_dec j i) as [->|N]; [rewrite E; apply andb_false_r|].
      rewrite Z.pow2_bits_false by lia. reflexivity. }
    rewrite Q. reflexivity.
Qed.

Section P.
Variable w : world.
Hypothesis Hw : world_ok w.
Notation vars := (W_vars w).
Variable same same_u : dst -> dst -> bool.
Hypothesis Hsame : forall a b, same a b = true -> u32 (dst_epd a) = u32 (dst_epd b).
Variable T : nat -> Z.
Variable lof lsf : Z.
Variable bf : Z -> Z.
Variable param : Z.
Notation FL := [lof; lsf; bf 1; bf 2; bf 3].
Variable V : list Z.
Hypothesis Hnd : NoDup (param :: FL).
Hypothesis HF : incl (param :: FL) vars.
Hypothesis HV : incl V vars.
Hypothesis HVF : forall v, In v V -> ~ In v (param :: FL).
Notation SC := (scratch (V ++ FL)).

Record inv (m : mem) : Prop := mkinv {
  i_lo : get m (vc lof FMask) = 0xFFFF;
  i_ls : get m (vc lsf FMask) = 0xFF;
  i_b : forall b, 1 <= b <= 3 -> get m (vc (bf b) FMask) = 0xFF * 2^(8 * b);
  i_mod : forall f, In f FL -> get m (vc f FMod) = w6 SetTo;
  i_ord : forall v, In v V -> ordinary m v }.

Lemma bf_in b : 1 <= b <= 3 -> In (bf b) FL.
Proof using Type.
  clear. intros Hb. assert (b = 1 \/ b = 2 \/ b = 3) as [->|[->| ->]] by lia; cbn; auto 10.
Qed.

Definition okdst (d : dst) : Prop :=
  match d with DVar v => In v (param :: FL) | DExpr a => patchable w a | DInt _ => False end.
Definition okpair (p : pair) : Prop :=
  let '(d, md, s) := p in okdst d /\
  match s with SVar v => (In v V /\ md = Some SetTo) \/ (In v FL /\ md = None) | SConst _ => False end.

Definition cur0 (u : Z) : option modifier := if existsb (Z.eqb u) FL then Some SetTo else None.
Lemma cur0_in u : In u FL -> cur0 u = Some SetTo.
Proof. intros H. unfold cur0. replace (existsb (Z.eqb u) FL) with true; [reflexivity|]. symmetry. apply existsb_exists. exists u. split; [exact H|apply Z.eqb_refl]. Qed.
Lemma cur0_some u md : cur0 u = Some md -> In u FL /\ md = SetTo.
Proof. unfold cur0. destruct (existsb _ _) eqn:E; [|discriminate]. apply existsb_exists in E. destruct E as (x & Hx & Q). apply Z.eqb_eq in Q. subst. intros H. split; [exact Hx|congruence]. Qed.

Lemma res_resolve l : forall cur, (forall u, In u FL -> cur u = Some SetTo) -> Forall okpair l -> resolve cur l = Some (map res l) /\
  (forall u, In u FL -> cur_after cur l u = Some SetTo).
Proof.
  induction l as [|[[d md] s] l IH]; intros cur Hc Hl; [split; [reflexivity|exact Hc]|].
  inversion Hl as [|x xs Hx Hl']. subst. destruct Hx as [Hd Hs]. destruct s as [c|v]; [destruct Hs|].
  destruct Hs as [[Hv ->]|[Hv ->]]; cbn [resolve map res cur_after].
  - destruct (IH (fun u => if u =? v then Some SetTo else cur u)) as [E1 E2]; [intros u Hu; destruct (u =? v); auto|exact Hl'|].
    rewrite E1. split; [reflexivity|exact E2].
  - rewrite (Hc v Hv). destruct (IH cur Hc Hl') as [E1 E2]. rewrite E1. split; [reflexivity|exact E2].
Qed.

Lemma srcs_ok l : Forall okpair l -> incl (srcs_of l) (V ++ FL).
Proof.
  intros H v Hv. apply in_flat_map in Hv. destruct Hv as ([[d md] s] & Hin & Hs). rewrite Forall_forall in H.
  destruct (H _ Hin) as [_ Q]. destruct s as [c|u]; [destruct Q|]. destruct Hs as [<-|[]].
  apply in_or_app. destruct Q as [[Q _]|[Q _]]; auto.
Qed.
Lemma VF_vars : incl (V ++ FL) vars.
Proof. intros x Hx. apply in_app_or in Hx. destruct Hx as [Hx|Hx]; [apply HV, Hx|apply HF; right; exact Hx]. Qed.

Lemma okdst_facts d : okdst d -> writable w (dst_epd d) /\ ~ SC (dst_epd d) /\ truthy d = true /\
  (forall v f, In v vars -> f <> FVal -> idx (dst_epd d) <> idx (vc v f)).
Proof.
  intros Hd. destruct d as [v|z|a]; cbn [okdst] in Hd; [|destruct Hd|].
  - split; [apply (val_writable w Hw); auto|]. split; [apply (not_scratch_val w Hw); auto using VF_vars|]. split; [reflexivity|].
    intros u f Hu Hf. apply (vsep w Hw); auto.
  - destruct Hd as [H1 H2]. split; [exact H1|]. split; [apply (sep_not_scratch w); auto using VF_vars|]. split; [reflexivity|].
    intros u f Hu _. apply H2, Hu.
Qed.

(* FVal and FMask are not scratch *)
Lemma SC_no v f : In v vars -> f = FVal \/ f = FMask -> ~ SC (vc v f).
Proof. intros. apply (not_scratch_val w Hw); auto using VF_vars. Qed.

Lemma assign_field l m v f : Forall okpair l -> In v vars -> f <> FVal -> get (assign_all m (map res l)) (vc v f) = get m (vc v f).
Proof.
  intros Hl Hv Hf. apply assign_all_other. intros d md s Hin. apply in_map_iff in Hin. destruct Hin as ([[d0 md0] s0] & E & Hin).
  cbn [res] in E. injection E as -> _ _. rewrite Forall_forall in Hl. destruct (Hl _ Hin) as [Hd _].
  apply (okdst_facts d Hd); auto.
Qed.

Lemma seq_part k l m : inv m -> Forall okpair l -> placed w T k (SeqCompute same same_u T k l) ->
  exists m', runs w (lbl T k, m) (lbl T (k + length (SeqCompute same same_u T k l)), m') /\
    agree SC m' (assign_all m (map res l)) /\ inv m' /\ keeps w m m'.
Proof.
  intros I Hl Hp. destruct (res_resolve l cur0 cur0_in Hl) as [R C].
  pose proof (srcs_ok l Hl) as Hs. assert (Hsv : incl (srcs_of l) vars) by (intros x Hx; apply VF_vars, Hs, Hx).
  destruct (SeqCompute_correct w same same_u T k l cur0 (map res l) m) as (m' & A & B & D & E & _); auto.
  - intros d md s Hin. rewrite Forall_forall in Hl. destruct (Hl _ Hin) as [Hd Hq]. destruct (okdst_facts d Hd) as (Q1 & Q2 & Q3 & _).
    split; [exact Q1|]. split; [intros Q; apply Q2; eapply scratch_incl; [|exact Q]; exact Hs|].
    destruct s as [c|v]; [exact Logic.I|]. split; [|exact Q3]. apply in_flat_map. exists (d, md, SVar v). split; [exact Hin|left; reflexivity].
  - intros v md _ H. apply cur0_some in H. destruct H as [H ->]. apply (i_mod m I v H).
  - intros v Hv. apply Hs in Hv. apply in_app_or in Hv. destruct Hv as [Hv|Hv]; [apply (i_ord m I v Hv)|].
    rewrite (i_mod m I v Hv). reflexivity.
  - assert (B' : agree SC m' (assign_all m (map res l))).
    { intros a Ha. apply B. intros Q. apply Ha. eapply scratch_incl; [|exact Q]. exact Hs. }
    assert (FM : forall v, In v vars -> get m' (vc v FMask) = get m (vc v FMask)).
    { intros v Hv. rewrite B' by (apply SC_no; auto). apply assign_field; auto. discriminate. }
    assert (FO : forall v, In v vars -> ~ In v (srcs_of l) -> get m' (vc v FMod) = get m (vc v FMod)).
    { intros v Hv Hn. rewrite B; [apply assign_field; auto; discriminate|]. intros (u & g & H1 & H2 & H3).
      destruct (wo_sep w Hw v u FMod g Hv (Hsv u H1) H3) as [-> _]. contradiction. }
    assert (K : keeps w m m').
    { intros v Hv [O1 O2]. split; [rewrite FM by auto; exact O1|].
      destruct (in_dec Z.eq_dec v (srcs_of l)) as [Q|Q]; [apply E, Q|rewrite FO by auto; exact O2]. }
    exists m'. split; [exact A|]. split; [exact B'|]. split; [|exact K].
    assert (Ff : forall f, In f FL -> In f vars) by (intros f Hf; apply HF; right; exact Hf).
    constructor.
    + rewrite FM by (apply Ff; cbn; auto 10). apply (i_lo m I).
    + rewrite FM by (apply Ff; cbn; auto 10). apply (i_ls m I).
    + intros b Hb. rewrite FM by (apply Ff, bf_in, Hb). apply (i_b m I b Hb).
    + intros f Hf. destruct (in_dec Z.eq_dec f (srcs_of l)) as [Q|Q]; [apply (D f SetTo Q), C, Hf|].
      rewrite FO by auto. apply (i_mod m I f Hf).
    + intros v Hv. apply K; [apply HV, Hv|apply (i_ord m I v Hv)].
Qed.

(* ---- the byte filters ---- *)
Lemma fill_bits_run b : 1 <= b <= 3 -> forall n k i m, 0 <= i -> i + Z.of_nat n = 8 ->
  get m (vc (bf b) FVal) = (get m (vc param FVal)) mod 2^i * 2^(8 * b) ->
  placed w T k (fill_bits bf param T k b i n) ->
  exists m', runs w (lbl T k, m) (lbl T (k + length (fill_bits bf param T k b i n)), m') /\
    get m' (vc (bf b) FVal) = (get m (vc param FVal)) mod 256 * 2^(8 * b) /\
    (forall a, idx a <> idx (vc (bf b) FVal) -> get m' a = get m a).
Proof.
  intros Hb. assert (Hbv : In (bf b) vars) by (apply HF; right; apply bf_in, Hb).
  assert (Hpv : In param vars) by (apply HF; left; reflexivity).
  assert (Hne : idx (vc param FVal) <> idx (vc (bf b) FVal)).
  { apply (vsep w Hw); auto. left. inversion Hnd as [|x xs Q _]. intros E. apply Q. rewrite E. apply bf_in, Hb. }
  induction n as [|n IH]; intros k i m Hi Hn Hm Hp.
  - exists m. split; [cbn [fill_bits length]; rewrite Nat.add_0_r; apply steps_refl|]. split; [|auto].
    replace i with 8 in Hm by lia. exact Hm.
  - cbn [fill_bits] in Hp |- *. destruct (placed_app _ _ _ _ _ Hp) as [P1 P2].
    pose proof (conds_one_MX m (vc param FVal) AtLeast 1 (2^i) (wo_plain w Hw param FVal Hpv)) as Hc.
    pose proof (get_range m (vc param FVal)) as Rg.
    rewrite bit_test in Hc by (auto; lia).
    pose proof (bits_sum (get m (vc param FVal)) i ltac:(lia) Hi) as BS.
    assert (R : exists m1, runs w (lbl T k, m) (lbl T (S k), m1) /\
        get m1 (vc (bf b) FVal) = (get m1 (vc param FVal)) mod 2^(i + 1) * 2^(8 * b) /\
        (forall a, idx a <> idx (vc (bf b) FVal) -> get m1 a = get m a)).
    { replace (S k) with (k + length (Raw1 T k [CondMX (vc param FVal) AtLeast 1 (2^i)] [AddNumber (vc (bf b) FVal) (2^(i + 8 * b))]))%nat by (cbn; lia).
      destruct (Z.testbit (get m (vc param FVal)) i) eqn:Tb.
      - exists (upd m (vc (bf b) FVal) (u32 (get m (vc (bf b) FVal) + u32 (2^(i + 8 * b))))).
        split; [|split].
        + eapply raw_run; [exact P1|exact Hc|]. unfold AddNumber. apply do_cons_M; [apply (wo_plain w Hw); auto|apply (wo_prot w Hw); auto|]. apply do_nil.
        + rewrite get_upd_eq, get_upd_ne by auto. rewrite Hm, BS.
          assert (P : 0 < 2^i) by (apply Z.pow_pos_nonneg; lia).
          assert (L : 2^(i + 8 * b) < 2^32) by (apply Z.pow_lt_mono_r; lia). assert (0 < 2^(i + 8 * b)) by (apply Z.pow_pos_nonneg; lia).
          rewrite (u32_small (2^(i + 8 * b))) by lia. rewrite Z.pow_add_r by lia.
          rewrite u32_idem || idtac.
          pose proof (Z.mod_pos_bound (get m (vc param FVal)) (2^i) P) as Mb.
          replace (get m (vc param FVal) mod 2 ^ i * 2 ^ (8 * b) + 2 ^ i * 2 ^ (8 * b)) with ((get m (vc param FVal) mod 2 ^ i + 2 ^ i) * 2 ^ (8 * b)) by ring.
          rewrite !u32_small; [reflexivity|].
          all: assert (2^i <= 2^7) by (apply Z.pow_le_mono_r; lia); change (2^7) with 128 in *.
          all: assert (2^(8*b) <= 2^24) by (apply Z.pow_le_mono_r; lia); assert (0 < 2^(8*b)) by (apply Z.pow_pos_nonneg; lia).
          all: nia.
        + intros a Ha. apply get_upd_ne. congruence.
      - exists m. split; [eapply raw_skip; [exact P1|exact Hc]|]. split; [|auto]. rewrite Hm, BS, Z.add_0_r. reflexivity. }
    destruct R as (m1 & R1 & R2 & R3).
    destruct (IH (S k) (i + 1) m1) as (m' & A & B & C); [lia|lia|exact R2| |].
    { cbn [Raw1 length] in P2. replace (k + 1)%nat with (S k) in P2 by lia. exact P2. }
    exists m'. split; [|split].
    + eapply runs_trans; [exact R1|]. rewrite app_length. cbn [Raw1 length]. replace (k + (1 + length (fill_bits bf param T (S k) b (i + 1) n)))%nat with (S k + length (fill_bits bf param T (S k) b (i + 1) n))%nat by lia. exact A.
    + rewrite B, R3 by auto. reflexivity.
    + intros a Ha. rewrite C, R3 by auto. reflexivity.
Qed.

Definition exec (m : mem) (o : op) : mem :=
  match o with
  | Assign p => assign1 m (res p)
  | Fill b v => upd (upd m (vc param FVal) (get m (vc v FVal))) (vc (bf b) FVal) (get m (vc v FVal) mod 256 * 2^(8 * b))
  end.
Definition okop (o : op) : Prop := match o with Assign p => okpair p | Fill b v => 1 <= b <= 3 /\ In v V end.

Lemma fill_run k b v m : inv m -> 1 <= b <= 3 -> In v V -> placed w T k (fill_call same same_u bf param T k b v) ->
  exists m', runs w (lbl T k, m) (lbl T (k + length (fill_call same same_u bf param T k b v)), m') /\
    agree SC m' (exec m (Fill b v)) /\ inv m' /\ keeps w m m'.
Proof.
  intros I Hb Hv Hp. unfold fill_call in *. set (c := SeqCompute same same_u T k [(DVar param, Some SetTo, SVar v)]) in *.
  assert (Hbv : In (bf b) vars) by (apply HF; right; apply bf_in, Hb).
  assert (Hpv : In param vars) by (apply HF; left; reflexivity).
  assert (Hne : idx (vc param FVal) <> idx (vc (bf b) FVal)).
  { apply (vsep w Hw); auto. left. inversion Hnd as [|x xs Q _]. intros E. apply Q. rewrite E. apply bf_in, Hb. }
  destruct (placed_app _ _ _ _ _ Hp) as [P1 P2]. unfold fill_body in P2. destruct (placed_app _ _ _ _ _ P2) as [P3 P4]. cbn [Raw1 length] in P4.
  destruct (seq_part k [(DVar param, Some SetTo, SVar v)] m I) as (m1 & A1 & B1 & I1 & K1); [|exact P1|].
  { constructor; [|constructor]. split; [left; reflexivity|]. left. auto. }
  fold c in A1. cbn [map res assign_all fold_left] in B1.
  rewrite (assign1_ord m (DVar param) SetTo (SVar v)) in B1 by (apply (i_ord m I v Hv)).
  cbn [dst_epd sval do_mod] in B1.
  set (m2 := upd m1 (vc (bf b) FVal) 0).
  assert (R2 : runs w (lbl T (k + length c), m1) (lbl T (k + length c + 1), m2)).
  { replace (k + length c + 1)%nat with (k + length c + length (Raw1 T (k + length c) [] [SetNumber (vc (bf b) FVal) 0]))%nat by (cbn; lia).
    eapply raw_run; [exact P3|apply conds_nil|]. unfold SetNumber. apply do_cons_M; [apply (wo_plain w Hw); auto|apply (wo_prot w Hw); auto|]. apply do_nil. }
  replace (k + length c + 1)%nat with (S (k + length c)) in * by lia.
  destruct (fill_bits_run b Hb 8 (S (k + length c)) 0 m2) as (m3 & A3 & B3 & C3); [lia|lia| |exact P4|].
  { unfold m2. rewrite get_upd_eq. change (2^0) with 1. rewrite Z.mod_1_r. reflexivity. }
  assert (Ep : get m1 (vc param FVal) = get m (vc v FVal)).
  { rewrite B1 by (apply SC_no; auto). rewrite get_upd_eq. apply u32_small, get_range. }
  exists m3. split; [|split; [|split]].
  - unfold fill_body. rewrite !app_length. cbn [Raw1 length].
    eapply runs_trans; [exact A1|]. eapply runs_trans; [exact R2|].
    replace (k + (length c + (1 + length (fill_bits bf param T (S (k + length c)) b 0 8))))%nat with (S (k + length c) + length (fill_bits bf param T (S (k + length c)) b 0 8))%nat by lia. exact A3.
  - intros a Ha. cbn [exec]. destruct (Z.eq_dec (idx a) (idx (vc (bf b) FVal))) as [E|E].
    + rewrite (get_cong m3 a (vc (bf b) FVal) E), (get_cong _ a (vc (bf b) FVal) E), get_upd_eq, B3. unfold m2. rewrite get_upd_ne by auto. rewrite Ep.
      symmetry. apply u32_small. pose proof (Z.mod_pos_bound (get m (vc v FVal)) 256 ltac:(lia)).
      assert (2^(8*b) <= 2^24) by (apply Z.pow_le_mono_r; lia). assert (0 < 2^(8*b)) by (apply Z.pow_pos_nonneg; lia). nia.
    + rewrite C3 by auto. unfold m2. rewrite get_upd_ne by congruence. rewrite get_upd_ne by congruence. apply B1, Ha.
  - assert (G : forall u f, In u vars -> f <> FVal -> get m3 (vc u f) = get m1 (vc u f)).
    { intros u f Hu Hf. rewrite C3 by (apply (vsep w Hw); auto). apply get_upd_ne. apply (vsep w Hw); auto. }
    assert (Ff : forall f, In f FL -> In f vars) by (intros f Hf; apply HF; right; exact Hf).
    constructor.
    + rewrite G by (try discriminate; apply Ff; cbn; auto 10). apply (i_lo m1 I1).
    + rewrite G by (try discriminate; apply Ff; cbn; auto 10). apply (i_ls m1 I1).
    + intros b' Hb'. rewrite G by (try discriminate; apply Ff, bf_in, Hb'). apply (i_b m1 I1 b' Hb').
    + intros f Hf. rewrite G by (try discriminate; auto). apply (i_mod m1 I1 f Hf).
    + intros u Hu. destruct (i_ord m1 I1 u Hu) as [O1 O2]. split; rewrite G; auto; discriminate.
  - eapply keeps_trans; [exact K1|]. intros u Hu [O1 O2].
    split; (rewrite C3 by (apply (vsep w Hw); auto; right; discriminate)); unfold m2; rewrite get_upd_ne by (apply (vsep w Hw); auto; right; discriminate); auto.
Qed.

(* exec respects agreement outside scratch cells *)
Lemma exec_agree o m1 m2 : okop o -> agree SC m1 m2 -> agree SC (exec m1 o) (exec m2 o).
Proof.
  intros Ho Ha. destruct o as [[[d md] s]|b v]; cbn [okop exec] in *.
  - destruct Ho as [Hd Hs]. destruct (okdst_facts d Hd) as (_ & Q & _). destruct s as [c|v]; [destruct Hs|].
    assert (Hv : In v vars). { destruct Hs as [[Hs _]|[Hs _]]; [apply HV, Hs|apply HF; right; exact Hs]. }
    cbn [res assign1]. rewrite (Ha _ Q), (Ha (vc v FMask)), (Ha (vc v FVal)) by (apply SC_no; auto).
    apply agree_upd; auto.
  - destruct Ho as [Hb Hv]. rewrite (Ha (vc v FVal)) by (apply SC_no; auto). apply agree_upd; [apply agree_upd; auto|reflexivity].
Qed.
Lemma execs_agree l : forall m1 m2, Forall okop l -> agree SC m1 m2 -> agree SC (fold_left exec l m1) (fold_left exec l m2).
Proof.
  induction l as [|o l IH]; intros m1 m2 Hl Ha; [exact Ha|]. inversion Hl. subst. cbn [fold_left]. apply IH; auto. apply exec_agree; auto.
Qed.
Lemma agree_trans S m1 m2 m3 : agree S m1 m2 -> agree S m2 m3 -> agree S m1 m3.
Proof. intros A B a Ha. rewrite A, B by auto. reflexivity. Qed.

Lemma emit_run l : forall k pend m, inv m -> Forall okop l -> Forall okpair pend ->
  placed w T k (emit_ops same same_u bf param T k l pend) ->
  exists m', runs w (lbl T k, m) (lbl T (k + length (emit_ops same same_u bf param T k l pend)), m') /\
    agree SC m' (fold_left exec l (assign_all m (map res pend))) /\ inv m' /\ keeps w m m'.
Proof.
  induction l as [|o l IH]; intros k pend m I Hl Hp Hpl; cbn [emit_ops fold_left] in *.
  - apply seq_part; auto.
  - inversion Hl as [|x xs Ho Hl']. subst. destruct o as [p|b v]; cbn [okop] in Ho.
    + destruct (IH k (pend ++ [p]) m I Hl') as (m' & A & B & C); [apply Forall_app; auto|exact Hpl|].
      exists m'. split; [exact A|]. split; [|exact C]. rewrite map_app in B. unfold assign_all in B. rewrite fold_left_app in B. exact B.
    + set (c1 := SeqCompute same same_u T k pend) in *. set (c2 := fill_call same same_u bf param T (k + length c1) b v) in *.
      destruct (placed_app _ _ _ _ _ Hpl) as [P1 P2]. destruct (placed_app _ _ _ _ _ P2) as [P3 P4].
      destruct Ho as [Hb Hv].
      destruct (seq_part k pend m I Hp P1) as (m1 & A1 & B1 & I1 & K1).
      destruct (fill_run (k + length c1) b v m1 I1 Hb Hv P3) as (m2 & A2 & B2 & I2 & K2).
      destruct (IH (k + length c1 + length c2)%nat [] m2 I2 Hl' (Forall_nil _) P4) as (m3 & A3 & B3 & I3 & K3).
      exists m3. split; [|split; [|split]].
      * eapply runs_trans; [exact A1|]. eapply runs_trans; [exact A2|]. rewrite !app_length.
        replace (k + (length c1 + (length c2 + length (emit_ops same same_u bf param T (k + length c1 + length c2) l []))))%nat
          with (k + length c1 + length c2 + length (emit_ops same same_u bf param T (k + length c1 + length c2) l []))%nat by lia. exact A3.
      * eapply agree_trans; [exact B3|]. cbn [map assign_all fold_left]. apply execs_agree; auto.
        eapply agree_trans; [exact B2|]. apply exec_agree; [split; auto|]. exact B1.
      * exact I3.
      * eapply keeps_trans; [exact K1|]. eapply keeps_trans; [exact K2|exact K3].
Qed.
End P.
