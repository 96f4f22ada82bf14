(* Shifts: the bodies of the functions of bitwise.py compute. *)
From Coq Require Import ZArith Lia Bool List Permutation ZifyBool ZifyNat.
From Verif Require Import Lib Word Machine MachineProofs VarModel VarSpec VarProofs SeqProofs NonSeqProofs
  OpsModel OpsSpec OpsBase OpsProofs OpsArith OpsBits OpsXor OpsShift OpsFinal FuncModel FuncSpec FuncProofs FuncBody MulModel MulArith MulConst MulVar DivVar.
Import ListNotations.
Open Scope Z_scope.

Definition shl (A B : Z) : Z := if B <? 32 then u32 (A * 2 ^ B) else 0.
Definition shr (A B : Z) : Z := if B <? 32 then A / 2 ^ B else 0.

Lemma shl_pow A B : 0 <= B -> shl A B = u32 (A * 2 ^ B).
Proof.
  intros HB. unfold shl. destruct (Z.ltb_spec B 32); [reflexivity|].
  symmetry. transitivity (u32 0); [|reflexivity]. apply u32_eq with (k := A * 2 ^ (B - 32)).
  rewrite <- Z.mul_assoc, <- Z.pow_add_r by lia. replace (B - 32 + 32) with B by ring. ring.
Qed.

Section W.
Variable w : world.
Hypothesis Hw : world_ok w.
Notation vars := (W_vars w).
Variable same same_u : dst -> dst -> bool.
Hypothesis Hsame : forall a b, same a b = true -> u32 (dst_epd a) = u32 (dst_epd b).
Variable perm : list pair -> list pair.
Hypothesis Hperm : forall l, Permutation (perm l) l.

(* ---------- left shift by a variable ---------- *)
Definition lsh_inv (T : nat -> Z) (m : mem) : Prop := get m (lsh_c T) = lbl T 3.
Lemma lsh_private T : private (lsh_inv T) [lsh_c T].
Proof. intros m m' H E. unfold lsh_inv. rewrite H; cbn; auto. Qed.

Theorem bitlshift_computes T a b r len :
  let f := mkfunc T len [DVar a; DVar b] [r] in
  let body := bitlshift_body same same_u perm T a b f in
  len = length body -> fn_wf w f -> a <> r -> b <> r -> patchable w (lsh_c T) -> idx (lsh_c T) <> idx (fn_nptr f) ->
  placed w T 0 body ->
  computes w f (lsh_inv T) (tmp [a] [val a; val b; val r; lsh_c T]) (fun l => [shl (nth 0 l 0) (nth 1 l 0)]).
Proof.
  intros f body Hlen Hf Har Hbr Hc Hcn Hp.
  assert (Ha : In a vars) by (apply (fw_args _ _ Hf (DVar a)); cbn; auto).
  assert (Hb : In b vars) by (apply (fw_args _ _ Hf (DVar b)); cbn; auto).
  assert (Hr : In r vars) by (apply (fw_rvars _ _ Hf); cbn; auto).
  assert (Hab : a <> b).
  { intros ->. pose proof (fw_sep _ _ Hf) as N. cbn [fn_args f map dst_epd] in N. inversion_clear N as [|? ? _ N1]. inversion_clear N1 as [|? ? N2 _].
    apply N2. left. reflexivity. }
  destruct Hc as [[Hcp Hcw] Hcs]. set (c := lsh_c T) in *.
  apply computes_intro.
  { apply (guard_tmp w Hw); auto.
    - intros y [<-|[]]; auto.
    - intros y [<-|[]] [E|[]]; congruence.
    - intros y [<-|[<-|[<-|[<-|[]]]]]; [split; [apply (valcell_val w Hw); auto|apply (ret_nptr w); auto]..|].
      split; [apply patch_valcell; split; [split|]; auto|exact Hcn]. }
  intros m HI Ho _. rewrite (fn_end T f body) by auto. assert (Hoa : ordinary m a) by (apply Ho; cbn; auto). clear Ho.
  unfold body, bitlshift_body in Hp |- *. clear Hlen body. fold c in Hp |- *. unfold lsh_inv in HI. fold c in HI.
  apply placed_app in Hp. destruct Hp as [Hp PR]. apply placed_cons in Hp. destruct Hp as [P0 Hp]. apply placed_cons in Hp. destruct Hp as [P1 P2].
  apply placed_one in P2.
  (* set up *)
  pose (m1 := upd (upd (upd m (vc a FNext) (lbl T 2)) (vc a FDest) (u32 (val a))) (vc a FMod) (w6 Add)).
  assert (R1 : runs w (lbl T 0, m) (lbl T 1, m1)).
  { eapply run_true; [exact P0|reflexivity|apply conds_nil| |cbn [rd]; apply u32_lbl]. unfold QueueAddTo, SetNextPtr, SetDest, SetModifier.
    apply do_cons_M; [apply (wo_plain w Hw); auto|apply (wo_prot w Hw); auto|].
    apply do_cons_M; [apply (wo_plain w Hw); auto|apply (wo_prot w Hw); auto|].
    apply do_cons_MX; [apply (wo_plain w Hw); auto|apply (wo_prot w Hw); auto|].
    rewrite setmod_val; [| |apply get_range]; [|rewrite !get_upd_ne by sep; apply Hoa]. cbn [do_mod]. rewrite u32_lbl. apply do_nil. }
  assert (F1 : fr [vc a FNext; vc a FDest; vc a FMod] m m1).
  { intros y Hy. unfold m1. rewrite !get_upd_ne by (apply Hy; cbn; auto). reflexivity. }
  (* loop *)
  assert (L : forall n m, get m (val b) = Z.of_nat n -> get m c = lbl T 3 -> get m (vc a FNext) = lbl T 2 -> get m (vc a FDest) = u32 (val a) ->
    get m (vc a FMod) = w6 Add -> get m (vc a FMask) = 0xFFFFFFFF ->
    exists m', runs w (lbl T 1, m) (lbl T 3, m') /\ get m' (val a) = u32 (get m (val a) * 2 ^ Z.of_nat n) /\ fr [val a; val b] m m').
  { clear m HI Hoa m1 R1 F1. induction n as [|n IH]; intros m Vb Vc Vn Vd Vm Vk.
    - exists m. split; [|split; [|apply fr_refl]].
      + eapply run_false; [exact P1|reflexivity| |cbn [rd]; exact Vc].
        apply conds_cons_M; [apply (wo_plain w Hw); auto| |auto]. intros _.
        pose proof (conds_one_M m (val b) AtLeast 1 (wo_plain w Hw b FVal Hb)) as Hcd. cbn [do_cmp] in Hcd. rewrite Vb in Hcd.
        replace (u32 1 <=? Z.of_nat 0) with false in Hcd by reflexivity. exact Hcd.
      + change (2 ^ Z.of_nat 0) with 1. rewrite Z.mul_1_r, u32_get. reflexivity.
    - pose proof (get_range m (val b)) as HB. rewrite Vb in HB. pose proof (get_range m (val a)) as HA.
      destruct (Z.eq_dec (get m (val a)) 0) as [E|E].
      + exists m. split; [|split; [rewrite E; reflexivity|apply fr_refl]].
        eapply run_false; [exact P1|reflexivity| |cbn [rd]; exact Vc].
        apply conds_cons_M; [apply (wo_plain w Hw); auto| |auto]. cbn [do_cmp]. rewrite E. discriminate.
      + pose (m2 := upd m c (pa a)).
        pose (m3 := upd m2 (val a) (u32 (get m (val a) + get m (val a)))).
        pose (m4 := upd (upd m3 (val b) (get m (val b) - 1)) c (lbl T 3)).
        assert (Hca : u32 (pa a) = pa a) by apply u32_pa.
        assert (Sc : forall v f, In v vars -> idx c <> idx (vc v f)) by (intros; apply Hcs; auto).
        assert (Sc' : forall v f, In v vars -> idx (vc v f) <> idx c) by (intros v fl Hv E'; exact (Hcs v fl Hv (eq_sym E'))).
        assert (F4 : fr [val a; val b] m m4).
        { intros y Hy. unfold m4, m3, m2. destruct (Z.eq_dec (idx c) (idx y)) as [Ec|Ec].
          - unfold get in *. rewrite <- Ec. match goal with |- u32 (?mm (idx c)) = _ => fold (get mm c) end. rewrite get_upd_eq, u32_lbl. symmetry. exact Vc.
          - rewrite get_upd_ne by exact Ec. rewrite !get_upd_ne by (apply Hy; cbn; auto). apply get_upd_ne. exact Ec. }
        assert (R : runs w (lbl T 1, m) (lbl T 1, m4)).
        { eapply runs_trans.
          - eapply run_true with (m' := m2) (pc' := pa a); [exact P1|reflexivity| | |].
            + apply conds_cons_M; [apply (wo_plain w Hw); auto| |]; cbn [do_cmp]; change (u32 1) with 1; [|intros Q; lia]. intros _.
              pose proof (conds_one_M m (val b) AtLeast 1 (wo_plain w Hw b FVal Hb)) as Hcd. cbn [do_cmp] in Hcd. rewrite Vb in Hcd.
              replace (u32 1 <=? Z.of_nat (S n)) with true in Hcd by (change (u32 1) with 1; lia). exact Hcd.
            + apply do_cons_M; auto. cbn [do_mod]. rewrite Hca. apply do_nil.
            + cbn [rd]. unfold m2. rewrite get_upd_eq. exact Hca.
          - eapply runs_trans.
            + assert (G : forall fl, get m2 (vc a fl) = get m (vc a fl)) by (intros fl; apply get_upd_ne; auto).
              pose proof (hop w Hw m2 a (val a) Add (lbl T 2) Ha) as H. rewrite !G in H. specialize (H Vm Vd (val_writable w Hw a FVal Ha)).
              rewrite Vk in H. change 0xFFFFFFFF with (Z.ones 32) in H. rewrite do_modx_full in H by apply get_range. cbn [do_mod] in H.
              apply H; [intros fl ->; sep|exact Vn].
            + fold m3. eapply run_true; [exact P2|reflexivity|apply conds_nil| |cbn [rd]; apply u32_lbl].
              unfold SubtractNumber. apply do_cons_M; [apply (wo_plain w Hw); auto|apply (wo_prot w Hw); auto|].
              apply do_cons_M; [exact Hcp|exact Hcw|]. cbn [do_mod]. rewrite u32_lbl.
              replace (get m3 (val b)) with (get m (val b)) by (unfold m3, m2; rewrite !get_upd_ne by (auto; sep); reflexivity).
              change (u32 1) with 1. rewrite Z.max_r by lia. apply do_nil. }
        assert (G : forall v fl, In v vars -> (v <> a \/ fl <> FVal) -> (v <> b \/ fl <> FVal) -> get m4 (vc v fl) = get m (vc v fl)).
        { intros v fl Hv N1 N2. apply F4. intros y [<-|[<-|[]]]; apply (vsep w Hw); auto.
          - destruct N1; [left; auto|right; auto].
          - destruct N2; [left; auto|right; auto]. }
        destruct (IH m4) as (m5 & R5 & V5 & F5).
        * unfold m4. rewrite get_upd_ne by auto. rewrite get_upd_eq, Vb. rewrite u32_small by lia. lia.
        * rewrite F4; [exact Vc|]. intros y [<-|[<-|[]]]; auto.
        * rewrite G; auto; right; discriminate.
        * rewrite G; auto; right; discriminate.
        * rewrite G; auto; right; discriminate.
        * rewrite G; auto; right; discriminate.
        * exists m5. split; [eapply runs_trans; eauto|]. split; [|eapply fr_trans; eauto].
          rewrite V5. unfold m4, m3. rewrite get_upd_ne by auto. rewrite get_upd_ne by sep. rewrite get_upd_eq, u32_idem, u32_mul_l.
          f_equal. rewrite Nat2Z.inj_succ, Z.pow_succ_r by lia. ring. }
  destruct (L (Z.to_nat (get m (val b))) m1) as (m2 & R2 & V2 & F2).
  { rewrite F1; [rewrite Z2Nat.id by apply get_range; reflexivity|]. intros y [<-|[<-|[<-|[]]]]; sep. }
  { rewrite F1; [exact HI|]. intros y [<-|[<-|[<-|[]]]] E; (eapply Hcs; [exact Ha|symmetry; exact E]). }
  { unfold m1. rewrite !get_upd_ne by sep. rewrite get_upd_eq. apply u32_lbl. }
  { unfold m1. rewrite !get_upd_ne by sep. rewrite get_upd_eq. apply u32_idem. }
  { unfold m1. rewrite get_upd_eq. apply w6_small. }
  { unfold m1. rewrite !get_upd_ne by sep. apply Hoa. }
  clear L. rewrite Z2Nat.id in V2 by apply get_range.
  assert (Va1 : get m1 (val a) = get m (val a)) by (apply F1; intros y [<-|[<-|[<-|[]]]]; sep). rewrite Va1 in V2.
  assert (K2 : keeps w m m2).
  { intros v Hv [O1 O2]. assert (G2 : forall fl, fl <> FVal -> get m2 (vc v fl) = get m1 (vc v fl)).
    { intros fl Hfl. apply F2. intros y [<-|[<-|[]]]; apply (vsep w Hw); auto. }
    split; rewrite G2 by discriminate.
    - rewrite F1; [exact O1|]. intros y [<-|[<-|[<-|[]]]]; apply (vsep w Hw); auto; right; discriminate.
    - destruct (Z.eq_dec v a) as [->|Hne]; [unfold m1; rewrite get_upd_eq, w6_small; reflexivity|].
      rewrite F1; [exact O2|]. intros y [<-|[<-|[<-|[]]]]; apply (vsep w Hw); auto. }
  destruct (ret_run w Hw same same_u Hsame perm Hperm T 3 f [SVar a] m2) as (m3 & A3 & B3 & K3).
  { intros y [<-|[]]; exact Hr. } { repeat constructor; auto. } { reflexivity. }
  { intros s [<-|[]]. split; [exact Ha|apply K2; auto]. }
  { intros v [<-|[]] [E|[]]. congruence. }
  { exact PR. }
  assert (V3 : get m3 (val r) = get m2 (val a)) by (apply (proj1 B3); left; reflexivity).
  apply does_quiet in B3. cbn [f fn_rets map combine fst app vargs flat_map svar sval] in B3.
  set (S := tmp [a] [val a; val b; val r; c]).
  assert (Q : quiet S m m3).
  { intros y Hy. rewrite B3; [rewrite F2; [apply F1|]|].
    - intros z Hz E. apply Hy. left. exists a. destruct Hz as [<-|[<-|[<-|[]]]]; eexists; (split; [cbn; auto|split; [|symmetry; exact E]]); auto.
    - intros z Hz E. apply Hy. right. exists z. split; [|auto]. destruct Hz as [<-|[<-|[]]]; cbn; auto.
    - intros Q. apply Hy. eapply tmp_sub; [| |exact Q]; [apply incl_refl|]. intros z [<-|[]]; cbn; auto. }
  exists m3. split; [|split; [|split; [exact Q|split]]].
  - eapply runs_trans; [exact R1|]. eapply runs_trans; [exact R2|]. exact A3.
  - unfold lsh_inv. fold c. rewrite B3; [rewrite F2; [rewrite F1; [exact HI|]|]|].
    + intros y [<-|[<-|[<-|[]]]] E; (eapply Hcs; [exact Ha|symmetry; exact E]).
    + intros y [<-|[<-|[]]] E; [eapply Hcs; [exact Ha|symmetry; exact E]|eapply Hcs; [exact Hb|symmetry; exact E]].
    + apply (cell_not_tmp w); [intros y [<-|[]]; exact Ha|exact Hcs|]. intros y [<-|[]] E. eapply Hcs; [exact Hr|symmetry; exact E].
  - cbn [f fn_rets fn_args map dst_epd nth]. rewrite V3, V2, shl_pow by apply get_range. reflexivity.
  - eapply keeps_trans; eauto.
Qed.

(* ---------- left shift by a constant through the self-adding variable ---------- *)
Definition adder_ready (t : Z) (m : mem) : Prop :=
  get m (vc t FMask) = 0xFFFFFFFF /\ get m (vc t FDest) = u32 (val t) /\ get m (vc t FMod) = w6 Add.

Lemma vproc_len1 T k o : length (VProc T k [o] []) = 1%nat.
Proof. reflexivity. Qed.
Lemma flat_vproc T o n : length (flat_map (fun i => VProc T i [o] []) (seq 0 n)) = n.
Proof.
  assert (H : forall n k, length (flat_map (fun i => VProc T i [o] []) (seq k n)) = n).
  { clear n. induction n as [|n IH]; intros k; [reflexivity|]. cbn [seq flat_map]. rewrite app_length, vproc_len1, IH. reflexivity. }
  apply H.
Qed.

Lemma doubles T o : In o vars -> forall n k m, adder_ready o m ->
  placed w T k (flat_map (fun i => VProc T i [o] []) (seq k n)) ->
  exists m', runs w (lbl T k, m) (lbl T (k + n), m') /\ get m' (val o) = u32 (get m (val o) * 2 ^ Z.of_nat n) /\
    fr [val o; vc o FNext] m m' /\ adder_ready o m'.
Proof.
  intros Ho. induction n as [|n IH]; intros k m HR Hp.
  - exists m. rewrite Nat.add_0_r. split; [apply steps_refl|]. split; [|split; [apply fr_refl|exact HR]].
    change (2 ^ Z.of_nat 0) with 1. rewrite Z.mul_1_r, u32_get. reflexivity.
  - cbn [seq flat_map] in Hp. apply placed_app in Hp. destruct Hp as [P0 P1]. rewrite vproc_len1 in P1.
    destruct (vproc1 w Hw T k [] o (val o) Add m m) as (m1 & R1 & V1); auto.
    { intros y []. } { apply do_nil. } { apply (valcell_val w Hw); auto. } { apply HR. } { apply HR. }
    rewrite vproc_len1 in R1. destruct HR as (H1 & H2 & H3). rewrite H1 in V1. change 0xFFFFFFFF with (Z.ones 32) in V1.
    rewrite do_modx_full in V1 by apply get_range. cbn [do_mod] in V1.
    assert (F1 : fr [val o; vc o FNext] m m1).
    { intros y Hy. rewrite V1 by (intros E; apply (Hy (vc o FNext)); [cbn; auto|symmetry; exact E]). apply get_upd_ne. apply Hy. cbn. auto. }
    assert (G : forall fl, fl <> FVal -> fl <> FNext -> get m1 (vc o fl) = get m (vc o fl)).
    { intros fl N1 N2. apply F1. intros y [<-|[<-|[]]]; apply (vsep w Hw); auto. }
    destruct (IH (S k) m1) as (m2 & R2 & V2 & F2 & A2).
    { split; [|split]; rewrite G by discriminate; auto. }
    { rewrite Nat.add_1_r in P1. exact P1. }
    exists m2. split; [|split; [|split; [|exact A2]]].
    + eapply runs_trans; [exact R1|]. rewrite Nat.add_1_r. replace (k + S n)%nat with (S k + n)%nat by lia. exact R2.
    + rewrite V2, V1 by sep. rewrite get_upd_eq, u32_idem, u32_mul_l. f_equal. rewrite Nat2Z.inj_succ, Z.pow_succ_r by lia. ring.
    + eapply fr_trans; eauto.
Qed.

Theorem shn_body_ok T n t len d :
  let f := mkfunc T len [DExpr (sh_ret T n); DVar t] [] in
  let body := shn_body T n t in
  len = length body -> fn_wf w f -> valcell w d -> idx d <> idx (val t) -> idx d <> idx (fn_nptr f) ->
  placed w T 0 body ->
  body_ok w f (fun m => adder_ready t m /\ get m (sh_ret T n) = u32 d)
    (fun m1 m2 => adder_ready t m2 /\ get m2 d = u32 (get m1 (val t) * 2 ^ Z.of_nat n) /\ fr [d; val t; vc t FNext] m1 m2).
Proof.
  intros f body Hlen Hf Hd Hdt Hdn Hp m [HR HD] _.
  assert (Ht : In t vars) by (apply (fw_args _ _ Hf (DVar t)); cbn; auto).
  assert (Hc : patchable w (sh_ret T n)) by (apply (fw_args _ _ Hf (DExpr (sh_ret T n))); cbn; auto).
  destruct Hc as [[Hcp Hcw] Hcs].
  replace (lbl (fn_T f) (fn_len f)) with (lbl T (0 + length body)) by (rewrite <- Hlen; reflexivity).
  unfold body, shn_body in Hp |- *. clear Hlen body.
  apply placed_app in Hp. destruct Hp as [P0 Hp]. apply placed_app in Hp. destruct Hp as [P1 P2].
  rewrite flat_vproc in P1, P2. apply placed_one in P2.
  destruct (doubles T t Ht n 0%nat m HR P0) as (m1 & R1 & V1 & F1 & A1). cbn [Nat.add] in *.
  set (acts := [SetD (Imm (vc t FDest)) SetTo (Mem (sh_ret T n)); SetModifier t SetTo]) in *.
  assert (L1 : length (VProc T n [t] acts) = 1%nat) by reflexivity. rewrite L1 in P2.
  assert (HD1 : get m1 (sh_ret T n) = u32 d).
  { rewrite F1; [exact HD|]. intros y [<-|[<-|[]]] E; (eapply Hcs; [exact Ht|symmetry; exact E]). }
  pose (m2 := upd (upd m1 (vc t FDest) (u32 d)) (vc t FMod) (w6 SetTo)).
  destruct (vproc1 w Hw T n acts t d SetTo m1 m2) as (m3 & R3 & V3); auto.
  { intros y [<-|[<-|[]]] m'; [vm_compute; discriminate|apply type_SetMX]. }
  { apply do_cons_D with (a := vc t FDest); [reflexivity|apply (wo_plain w Hw); auto|apply (wo_prot w Hw); auto|].
    apply do_cons_MX; [apply (wo_plain w Hw); auto|apply (wo_prot w Hw); auto|].
    cbn [do_mod rd]. rewrite HD1. rewrite setmod_val; [apply do_nil| |apply get_range].
    rewrite get_upd_ne by sep. destruct A1 as (_ & _ & ->). reflexivity. }
  { unfold m2. rewrite get_upd_ne by sep. rewrite get_upd_eq. apply u32_idem. }
  { unfold m2. rewrite get_upd_eq. apply w6_small. }
  replace (get m2 (vc t FMask)) with (Z.ones 32) in V3 by (unfold m2; rewrite !get_upd_ne by sep; symmetry; apply A1).
  rewrite do_modx_full in V3 by apply get_range. cbn [do_mod] in V3.
  replace (get m2 (val t)) with (get m1 (val t)) in V3 by (unfold m2; rewrite !get_upd_ne by sep; reflexivity).
  pose (m4 := upd (upd m3 (vc t FDest) (u32 (val t))) (vc t FMod) (w6 Add)).
  destruct Hd as [Hdw Hds].
  assert (G3 : get m3 (vc t FMod) = w6 SetTo).
  { rewrite V3 by sep. rewrite get_upd_ne by (apply Hds; auto; discriminate). unfold m2. rewrite get_upd_eq. apply w6_small. }
  assert (R4 : runs w (lbl T (n + 1), m3) (lbl T (S (S n)), m4)).
  { eapply run_true; [exact P2|reflexivity|apply conds_nil| |cbn [rd]; apply u32_lbl]. unfold SetDest, SetModifier.
    apply do_cons_M; [apply (wo_plain w Hw); auto|apply (wo_prot w Hw); auto|].
    apply do_cons_MX; [apply (wo_plain w Hw); auto|apply (wo_prot w Hw); auto|].
    rewrite setmod_val; [apply do_nil| |apply get_range]. rewrite get_upd_ne by sep. rewrite G3. reflexivity. }
  assert (F : fr [d; val t; vc t FNext] m m4).
  { intros y Hy. destruct (Z.eq_dec (idx y) (idx (vc t FDest))) as [E|E].
    - unfold get in *. rewrite E. match goal with |- u32 (?a ?i) = u32 (?b _) => change (get m4 (vc t FDest) = get m (vc t FDest)) end.
      unfold m4. rewrite get_upd_ne by sep. rewrite get_upd_eq, u32_idem. symmetry. apply HR.
    - destruct (Z.eq_dec (idx y) (idx (vc t FMod))) as [E'|E'].
      + unfold get in *. rewrite E'. match goal with |- u32 (?a ?i) = u32 (?b _) => change (get m4 (vc t FMod) = get m (vc t FMod)) end.
        unfold m4. rewrite get_upd_eq, w6_small. symmetry. apply HR.
      + unfold m4. rewrite !get_upd_ne by auto. rewrite V3; [|intros Q; apply (Hy (vc t FNext)); [cbn; auto|symmetry; exact Q]].
        rewrite get_upd_ne by (apply Hy; cbn; auto). unfold m2. rewrite !get_upd_ne by auto. apply F1.
        intros c Hc. apply Hy. destruct Hc as [<-|[<-|[]]]; cbn; auto. }
  exists m4. split; [|split; [split; [|split; [|exact F]]|split; [|split; [|split]]]].
  - eapply runs_trans; [exact R1|]. eapply runs_trans; [exact R3|]. rewrite L1. 
    replace (length _) with (S (S n)); [exact R4|]. rewrite !app_length, flat_vproc, L1. cbn. lia.
  - split; [|split].
    + rewrite F; [apply HR|]. intros c [<-|[<-|[<-|[]]]]; [apply Hds; auto; discriminate|sep|sep].
    + unfold m4. rewrite get_upd_ne by sep. rewrite get_upd_eq. apply u32_idem.
    + unfold m4. rewrite get_upd_eq. apply w6_small.
  - unfold m4. rewrite !get_upd_ne by (intros E; eapply Hds; [exact Ht| |symmetry; exact E]; discriminate).
    rewrite V3 by (apply Hds; auto; discriminate). rewrite get_upd_eq, u32_get. exact V1.
  - intros r [].
  - intros v Hv [O1 O2].
    split; rewrite F; auto; intros c [<-|[<-|[<-|[]]]]; try (apply Hds; auto; discriminate); apply (vsep w Hw); auto; right; discriminate.
  - apply F. intros c [<-|[<-|[<-|[]]]]; [exact Hdn|destruct (fw_nptr _ _ Hf) as [_ Hns]; intros E; eapply Hns; [exact Ht|symmetry; exact E]..].
  - intros r [].
Qed.

(* ---------- a call inside other code ---------- *)
Lemma use_call T k D args rds m :
  fd_ok w D -> fd_ready D m -> call_ok w (fd_f D) args rds m -> spares (D, args, rds) D ->
  placed w T k (func_call same same_u perm T k (fd_f D) args rds) ->
  exists m', runs w (lbl T k, m) (lbl T (k + length (func_call same same_u perm T k (fd_f D) args rds)), m') /\
    changes (call_tmp (fd_f D) args (fd_S D)) m m' (combine rds (fd_F D (map (sval m) args))) /\ fd_ready D m' /\ keeps w m m'.
Proof.
  intros (F1 & F2 & F3) (R1 & R2 & R3) Hc [Sp _] Hp.
  destruct (call_computes w Hw same same_u Hsame perm Hperm T k (fd_f D) args rds m (fd_inv D) (fd_S D) (fd_F D) (fd_cells D)) as (m' & A & B & C & E & K); auto.
  exists m'. split; [exact A|]. split; [exact B|]. split; [|exact K]. split; [exact C|]. split; [exact E|].
  intros v Hv. apply K; auto. apply (fw_args _ _ F1 (DVar v) Hv).
Qed.

Lemma fd_ready_frame D m m' : fd_ok w D -> fd_ready D m -> keeps w m m' -> (forall c, In c (fd_state D) -> get m' c = get m c) -> fd_ready D m'.
Proof.
  intros (F1 & F2 & F3) (R1 & R2 & R3) K H. split; [|split].
  - apply (F3 m m'); auto. intros c Hc. apply H. apply in_or_app. auto.
  - intros r Hr. destruct (R2 r Hr) as [Q1 Q2].
    split; rewrite H; auto; apply in_or_app; right; apply in_flat_map; exists r; cbn; auto.
  - intros v Hv. apply K; auto. apply (fw_args _ _ F1 (DVar v) Hv).
Qed.

(* ---------- right shift by a variable ---------- *)
Definition rsh_inv (T : nat -> Z) (E D : fdesc) (e q ret : Z) (m : mem) : Prop :=
  get m (rsh_c T) = lbl T 2 /\ fd_ready E m /\ fd_ready D m /\ ordinary m e /\ ordinary m q /\ ordinary m ret.
(* everything that a shift may change *)
Definition rsh_S (T : nat -> Z) (E D : fdesc) (a b ret e q r r0 : Z) (x : Z) : Prop :=
  call_tmp (fd_f E) [SVar b] (fd_S E) x \/ call_tmp (fd_f D) [SVar a; SVar e] (fd_S D) x \/
  tmp [q; ret] [val e; val q; val r; val ret; val r0; rsh_c T] x.

Definition exp2_F (l : list Z) : list Z := [if hd 0 l <? 32 then 2 ^ hd 0 l else 0].
Theorem bitrshift_computes T a b r0 ret e q r len E D :
  let f := mkfunc T len [DVar a; DVar b] [r0] in
  let body := bitrshift_body same same_u perm T (fd_f E) (fd_f D) a b ret e q r f in
  len = length body -> fn_wf w f -> incl [ret; e; q; r] vars ->
  fd_ok w E -> fd_F E = exp2_F -> fd_ok w D -> fd_F D = div_F ->
  NoDup [a; b; ret; e; q; r; r0] ->
  patchable w (rsh_c T) ->
  (* the two calls may be made *)
  (forall m, (forall v, In v [a; b; e] -> ordinary m v) ->
     call_ok w (fd_f E) [SVar b] [val e] m /\ call_ok w (fd_f D) [SVar a; SVar e] [val q; val r] m) ->
  spares (E, [SVar b], [val e]) E -> spares (E, [SVar b], [val e]) D ->
  spares (D, [SVar a; SVar e], [val q; val r]) D -> spares (D, [SVar a; SVar e], [val q; val r]) E ->
  (* the variables of this function are not used by the others *)
  (forall x, In x [val a] -> ~ call_tmp (fd_f E) [SVar b] (fd_S E) x) ->
  (forall x, In x (fd_state E ++ fd_state D) -> ~ tmp [q; ret] [val ret; val r0; rsh_c T] x) ->
  ~ call_tmp (fd_f E) [SVar b] (fd_S E) (rsh_c T) -> ~ call_tmp (fd_f D) [SVar a; SVar e] (fd_S D) (rsh_c T) ->
  (forall c, In c (guard f) -> ~ rsh_S T E D a b ret e q r r0 c) ->
  placed w T 0 body ->
  computes w f (rsh_inv T E D e q ret) (rsh_S T E D a b ret e q r r0) (fun l => [shr (nth 0 l 0) (nth 1 l 0)]).
Proof.
  intros f body Hlen Hf Hincl HE FE HD FD Hnd Hcell Hcall SEE SED SDD SDE Ha_ Hst Hc1 Hc2 Hg Hp.
  assert (Ha : In a vars) by (apply (fw_args _ _ Hf (DVar a)); cbn; auto).
  assert (Hb : In b vars) by (apply (fw_args _ _ Hf (DVar b)); cbn; auto).
  assert (Hr0 : In r0 vars) by (apply (fw_rvars _ _ Hf); cbn; auto).
  assert (Hret : In ret vars) by (apply Hincl; cbn; auto).
  assert (He : In e vars) by (apply Hincl; cbn; auto).
  assert (Hq : In q vars) by (apply Hincl; cbn; auto).
  assert (Hr : In r vars) by (apply Hincl; cbn; auto).
  assert (Nrr : ret <> r0 /\ q <> r /\ e <> a /\ e <> q).
  { repeat match goal with H : NoDup (_ :: _) |- _ => apply NoDup_cons_iff in H; destruct H end. cbn [In] in *. intuition congruence. }
  destruct Hcell as [[Hcp Hcw] Hcs]. set (c := rsh_c T) in *.
  apply computes_intro; [exact Hg|].
  intros m (HI & RE & RD & Oe & Oq & Oret) Ho _. rewrite (fn_end T f body) by auto.
  assert (Oa : ordinary m a) by (apply Ho; cbn; auto). assert (Ob : ordinary m b) by (apply Ho; cbn; auto). clear Ho.
  unfold body, bitrshift_body in Hp |- *. cbv zeta in Hp |- *. clear Hlen body. fold c in Hp, HI |- *.
  set (mid := rsh_quot same same_u perm T (fd_f E) (fd_f D) a b ret e q r 2) in *.
  apply placed_app in Hp. destruct Hp as [Hp PM]. apply placed_app in PM. destruct PM as [PM PR].
  apply placed_cons in Hp. destruct Hp as [P0 P1]. apply placed_one in P1. cbn [length] in *.
  change (0 + 2)%nat with 2%nat in PM, PR.
  (* the return *)
  assert (Fin : forall m1, rsh_inv T E D e q ret m1 -> (forall y, ~ rsh_S T E D a b ret e q r r0 y -> get m1 y = get m y) -> keeps w m m1 ->
    runs w (lbl T 0, m) (lbl T (2 + length mid), m1) -> get m1 (val ret) = shr (get m (val a)) (get m (val b)) ->
    exists m', runs w (lbl T 0, m) (lbl T (0 + length ([mktrig [CondM (val b) AtLeast 32] [SetNumber (val ret) 0; SetM c SetTo (lbl T 1)] (Mem c) (Imm 4);
       RawTrig [] [SetM c SetTo (lbl T 2)] (lbl T (2 + length mid))] ++ mid ++ func_return same same_u perm T (2 + length mid) f [SVar ret])), m') /\
      rsh_inv T E D e q ret m' /\ (forall y, ~ rsh_S T E D a b ret e q r r0 y -> get m' y = get m y) /\
      map (fun r1 : Z => get m' (vc r1 FVal)) (fn_rets f) = [shr (nth 0 (map (fun d : dst => get m (dst_epd d)) (fn_args f)) 0) (nth 1 (map (fun d : dst => get m (dst_epd d)) (fn_args f)) 0)] /\ keeps w m m').
  { intros m1 (I1 & I2 & I3 & I4 & I5 & I6) Q1 K1 R1 V1.
    destruct (ret_run w Hw same same_u Hsame perm Hperm T (2 + length mid) f [SVar ret] m1) as (m2 & A2 & B2 & K2).
    { intros y [<-|[]]; exact Hr0. } { repeat constructor; auto. } { reflexivity. }
    { intros s [<-|[]]. split; auto. }
    { intros v [<-|[]] [Q|[]]. apply (proj1 Nrr). symmetry. exact Q. }
    { exact PR. }
    assert (V2 : get m2 (val r0) = get m1 (val ret)) by (apply (proj1 B2); left; reflexivity).
    apply does_quiet in B2. cbn [f fn_rets map combine fst app vargs flat_map svar sval] in B2.
    exists m2. split; [|split; [|split; [|split]]].
    - eapply runs_trans; [exact R1|]. rewrite !app_length. cbn [length] in *. exact A2.
    - assert (Hcc : get m2 c = get m1 c).
      { apply B2. apply (cell_not_tmp w); [intros y [<-|[]]; exact Hret|exact Hcs|]. intros y [<-|[]] Q. eapply Hcs; [exact Hr0|symmetry; exact Q]. }
      assert (Hcells : forall x, In x (fd_state E ++ fd_state D) -> get m2 x = get m1 x).
      { intros x Hx. apply B2. intros Q. apply (Hst x Hx). eapply tmp_sub; [| |exact Q]; intros z [<-|[]]; cbn; auto. }
      split; [fold c; rewrite Hcc; exact I1|]. split; [|split; [|auto]].
      + apply (fd_ready_frame E m1); auto. intros; apply Hcells, in_or_app; auto.
      + apply (fd_ready_frame D m1); auto. intros; apply Hcells, in_or_app; auto.
    - intros y Hy. rewrite B2; [auto|]. intros Q. apply Hy. right. right. eapply tmp_sub; [| |exact Q]; intros z [<-|[]]; cbn; auto 10.
    - cbn [f fn_rets fn_args map dst_epd nth]. rewrite V2, V1. reflexivity.
    - eapply keeps_trans; eauto. }
  destruct (Z.leb_spec 32 (get m (val b))) as [Hlt|Hlt].
  - (* 32 or more *)
    pose (m1 := upd (upd m (val ret) 0) c (lbl T 1)). pose (m2 := upd m1 c (lbl T 2)).
    assert (F2 : fr [val ret] m m2).
    { intros y Hy. unfold m2, m1. destruct (Z.eq_dec (idx c) (idx y)) as [Ec|Ec].
      - unfold get in *. rewrite <- Ec. match goal with |- u32 (?mm (idx c)) = _ => fold (get mm c) end. rewrite get_upd_eq, u32_lbl. symmetry. exact HI.
      - rewrite !get_upd_ne by (try exact Ec; apply Hy; cbn; auto). reflexivity. }
    assert (K2 : keeps w m m2) by (apply (fr_keeps w [val ret]); [intros y [<-|[]]; apply (valcell_val w Hw); auto|exact F2]).
    apply (Fin m2); [split; [|split; [|split; [|split; [|split]]]]| |exact K2| |].
    + fold c. unfold m2. rewrite get_upd_eq. apply u32_lbl.
    + apply (fd_ready_frame E m); auto. intros x Hx. apply F2. intros y [<-|[]] Q. apply (Hst x); [apply in_or_app; auto|].
      right. exists (val ret). cbn [In]. auto.
    + apply (fd_ready_frame D m); auto. intros x Hx. apply F2. intros y [<-|[]] Q. apply (Hst x); [apply in_or_app; auto|].
      right. exists (val ret). cbn [In]. auto.
    + apply K2; auto.
    + apply K2; auto.
    + apply K2; auto.
    + intros y Hy. apply F2. intros z [<-|[]] Q. apply Hy. right. right. right. exists (val ret). cbn [In]. auto 10.
    + eapply runs_trans.
      * eapply run_true with (m' := m1) (pc' := lbl T 1); [exact P0|reflexivity| | |].
        -- pose proof (conds_one_M m (val b) AtLeast 32 (wo_plain w Hw b FVal Hb)) as Hcd. cbn [do_cmp] in Hcd.
           replace (u32 32 <=? get m (val b)) with true in Hcd by (symmetry; apply Z.leb_le; exact Hlt). exact Hcd.
        -- unfold SetNumber. apply do_cons_M; [apply (wo_plain w Hw); auto|apply (wo_prot w Hw); auto|].
           apply do_cons_M; [exact Hcp|exact Hcw|]. cbn [do_mod]. rewrite u32_lbl. apply do_nil.
        -- cbn [rd]. unfold m1. rewrite get_upd_eq. apply u32_lbl.
      * eapply run_true; [exact P1|reflexivity|apply conds_nil| |cbn [rd]; apply u32_lbl].
        apply do_cons_M; [exact Hcp|exact Hcw|]. cbn [do_mod]. rewrite u32_lbl. apply do_nil.
    + unfold m2, m1. rewrite !get_upd_ne by (intros Q; eapply Hcs; [exact Hret|exact Q]). rewrite get_upd_eq. unfold shr.
      rewrite (proj2 (Z.ltb_ge _ _) Hlt). reflexivity.
  - (* less than 32 *)
    unfold mid, rsh_quot, andthen in PM. cbv zeta in PM. apply placed_app in PM. destruct PM as [PC1 PM]. apply placed_app in PM. destruct PM as [PC2 PA].
    assert (R0 : runs w (lbl T 0, m) (lbl T 2, m)).
    { eapply run_false; [exact P0|reflexivity| |cbn [rd]; exact HI].
      pose proof (conds_one_M m (val b) AtLeast 32 (wo_plain w Hw b FVal Hb)) as Hcd. cbn [do_cmp] in Hcd.
      replace (u32 32 <=? get m (val b)) with false in Hcd by (symmetry; apply Z.leb_gt; exact Hlt). exact Hcd. }
    assert (Oall : forall v, In v [a; b; e] -> ordinary m v) by (intros v [<-|[<-|[<-|[]]]]; auto).
    destruct (use_call T 2 E [SVar b] [val e] m HE RE (proj1 (Hcall m Oall)) SEE PC1) as (m1 & A1 & B1 & RE1 & K1).
    rewrite FE in B1. cbn [map sval exp2_F combine hd] in B1.
    replace (get m (val b) <? 32) with true in B1 by (symmetry; apply Z.ltb_lt; exact Hlt).
    assert (Oall1 : forall v, In v [a; b; e] -> ordinary m1 v) by (intros v Hv; apply K1; [destruct Hv as [<-|[<-|[<-|[]]]]; auto|auto]).
    assert (RD1 : fd_ready D m1).
    { destruct SED as [_ [HDE|Q]]; [rewrite HDE; exact RE1|]. apply (fd_ready_frame D m); auto. intros x Hx. destruct (Q x Hx) as [Q1 Q2].
      apply (changes_frame _ _ _ _ x B1 Q1). intros y [<-|[]]. apply Q2. cbn; auto. }
    destruct (use_call T _ D [SVar a; SVar e] [val q; val r] m1 HD RD1 (proj2 (Hcall m1 Oall1)) SDD PC2) as (m2 & A2 & B2 & RD2 & K2).
    rewrite FD in B2. cbn [map sval div_F] in B2.
    assert (Ve : get m1 (val e) = 2 ^ get m (val b)) by (apply (proj1 B1); left; reflexivity).
    assert (Va : get m1 (val a) = get m (val a)).
    { apply (changes_frame _ _ _ _ (val a) B1); [apply Ha_; cbn; auto|]. intros y [<-|[]]. cbn [fst]. apply (vsep w Hw); auto. left. apply Nrr. }
    assert (Hpos : 0 < 2 ^ get m (val b)) by (apply Z.pow_pos_nonneg; [lia|apply get_range]).
    assert (Vq : get m2 (val q) = get m (val a) / 2 ^ get m (val b)).
    { apply (proj1 B2). unfold div_F. cbn [nth]. rewrite Ve, Va. destruct (Z.eqb_spec (2 ^ get m (val b)) 0); [lia|]. left. reflexivity. }
    assert (RE2 : fd_ready E m2).
    { destruct SDE as [_ [HDE|Q]]; [rewrite HDE; exact RD2|]. apply (fd_ready_frame E m1); auto. intros x Hx. destruct (Q x Hx) as [Q1 Q2].
      apply (changes_frame _ _ _ _ x B2 Q1). intros y Hy. apply Q2. apply in_map_iff in Hy. destruct Hy as ([y1 y2] & <- & Hy). apply in_combine_l in Hy. exact Hy. }
    assert (K02 : keeps w m m2) by (eapply keeps_trans; eauto).
    assert (Hoq : ord_src w m2 (SVar q)) by (split; [exact Hq|apply K02; auto]).
    destruct (v_assign_does w Hw same same_u Hsame T _ ret (SVar q) m2 Hret Hoq PA) as (m3 & A3 & B3 & K3).
    assert (V3 : get m3 (val ret) = get m2 (val q)) by (apply (proj1 B3); left; reflexivity).
    apply does_quiet in B3. cbn [map fst app svar] in B3.
    assert (Hcells : forall x, In x (fd_state E ++ fd_state D) -> get m3 x = get m2 x).
    { intros x Hx. apply B3. intros Q. apply (Hst x Hx). eapply tmp_sub; [| |exact Q]; intros z [<-|[]]; cbn; auto. }
    assert (Q1 : forall x, ~ call_tmp (fd_f E) [SVar b] (fd_S E) x -> idx (val e) <> idx x -> get m1 x = get m x).
    { intros x N1 N2. apply (changes_frame _ _ _ _ x B1 N1). intros y [<-|[]]. exact N2. }
    assert (Q2 : forall x, ~ call_tmp (fd_f D) [SVar a; SVar e] (fd_S D) x -> idx (val q) <> idx x -> idx (val r) <> idx x -> get m2 x = get m1 x).
    { intros x N1 N2 N3. apply (changes_frame _ _ _ _ x B2 N1). intros y Hy. apply in_map_iff in Hy. destruct Hy as ([y1 y2] & <- & Hy). apply in_combine_l in Hy.
      destruct Hy as [<-|[<-|[]]]; auto. }
    assert (Sc : forall v fl, In v vars -> idx (vc v fl) <> idx c) by (intros v fl Hv Q; exact (Hcs v fl Hv (eq_sym Q))).
    assert (K03 : keeps w m m3) by (eapply keeps_trans; eauto).
    apply (Fin m3); [split; [|split; [|split; [|split; [|split]]]]| |exact K03| |].
    + fold c. rewrite B3, Q2, Q1; auto. apply (cell_not_tmp w); [intros y [<-|[]]; exact Hq|exact Hcs|]. intros y [<-|[]]; auto.
    + apply (fd_ready_frame E m2); auto. intros; apply Hcells, in_or_app; auto.
    + apply (fd_ready_frame D m2); auto. intros; apply Hcells, in_or_app; auto.
    + apply K03; auto.
    + apply K03; auto.
    + apply K03; auto.
    + intros y Hy. assert (Hv : forall z, In z [val e; val q; val r; val ret; val r0; c] -> idx z <> idx y).
      { intros z Hz Q. apply Hy. right. right. right. exists z. split; [exact Hz|symmetry; exact Q]. }
      rewrite B3, Q2, Q1; try (apply Hv; cbn [In]; auto 10).
      * reflexivity.
      * intros Q. apply Hy. left. exact Q.
      * intros Q. apply Hy. right. left. exact Q.
      * intros Q. apply Hy. right. right. eapply tmp_sub; [| |exact Q]; intros z [<-|[]]; cbn; auto 10.
    + eapply runs_trans; [exact R0|]. eapply runs_trans; [exact A1|]. eapply runs_trans; [exact A2|].
      replace (2 + length mid)%nat with (2 + length (func_call same same_u perm T 2 (fd_f E) [SVar b] [val e]) +
        length (func_call same same_u perm T (2 + length (func_call same same_u perm T 2 (fd_f E) [SVar b] [val e])) (fd_f D) [SVar a; SVar e] [val q; val r]) +
        length (v_assign same same_u T (2 + length (func_call same same_u perm T 2 (fd_f E) [SVar b] [val e]) +
        length (func_call same same_u perm T (2 + length (func_call same same_u perm T 2 (fd_f E) [SVar b] [val e])) (fd_f D) [SVar a; SVar e] [val q; val r])) ret (SVar q)))%nat; [exact A3|].
      unfold mid, rsh_quot, andthen. rewrite !app_length. lia.
    + rewrite V3, Vq. unfold shr. rewrite (proj2 (Z.ltb_lt _ _) Hlt). reflexivity.
Qed.
End W.
