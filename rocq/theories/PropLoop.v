(* Final theorems: loops over lists of units, sprites and other objects (C67). *)
From Coq Require Import ZArith Lia Bool List ZifyBool ZifyNat.
From Verif Require Import Lib Word Machine MachineProofs ReadGenModel PropReadGen LoopModel.
Import ListNotations.
Open Scope Z_scope.

(* ================= specification ================= *)
(* the dword at an address *)
Definition dw (m : mem) (a : Z) : Z := get m ((a - 0x58A364) / 4).
(* the address a holds the first of the nodes, each node holds the next one `off`
   bytes after its address, the last one a value that ends the list *)
Fixpoint chain (m : mem) (off a : Z) (nodes : list Z) (stop : Z -> Prop) : Prop :=
  match nodes with
  | [] => stop (dw m a)
  | p :: r => dw m a = p /\ chain m off (p + off) r stop
  end.
Definition slot (i : Z) : Z := 0x59CCA8 + 336 * i.
Definition unit_ptr (p : Z) : Prop := exists i, 0 <= i < 1700 /\ p = slot i.
(* what the body sees for a node *)
Definition seen (p : Z) : Z * Z := (p, u32 (EPD p)).
(* all nodes in order, or, if the body broke the loop, a non-empty first part *)
Definition visited (r : result) (nodes : list Z) : Prop :=
  exists s vis, (r = Some (map seen vis, s, false) /\ vis = nodes) \/
                (r = Some (map seen vis, s, true) /\ vis <> [] /\ exists rest, nodes = vis ++ rest).
(* while the body works on a node, it leaves alone ptr, epd, and the links of this
   node and of those still to come *)
Definition keeps_links (body : bodyfun) (off : Z) (nodes : list Z) : Prop :=
  forall pre p r s s1 b, nodes = pre ++ p :: r -> (ptr s, epd s) = seen p -> body s = (s1, b) ->
    ptr s1 = ptr s /\ epd s1 = epd s /\ forall q, In q (p :: r) -> dw (mm s1) (q + off) = dw (mm s) (q + off).
(* ... it leaves alone the links of those still to come *)
Definition keeps_later (body : bodyfun) (off : Z) (nodes : list Z) : Prop :=
  forall pre p r s s1 b, nodes = pre ++ p :: r -> (ptr s, epd s) = seen p -> body s = (s1, b) ->
    forall q, In q r -> dw (mm s1) (q + off) = dw (mm s) (q + off).

(* ================= walking a list ================= *)
Lemma epd_u32 p : u32 (EPD p) = u32 (p / 4 - EPD0).
Proof. f_equal. unfold EPD, EPD0. change (0x58A364 / 4) with 1452249. lia. Qed.
Lemma idx_u32 a : idx (u32 a) = idx a.
Proof. unfold idx, u32. change (2^32) with 4294967296. change (2^30) with 1073741824. lia. Qed.
Lemma get_u32 m a : get m (u32 a) = get m a.
Proof. apply get_cong, idx_u32. Qed.
Lemma field m p k off : off = 4 * k -> get m (u32 (u32 (EPD p) + k)) = dw m (p + off).
Proof. intros ->. rewrite get_u32. unfold dw. apply get_cong. unfold idx, u32, EPD. change (2^32) with 4294967296. change (2^30) with 1073741824. lia. Qed.
Lemma keeps_tl body off p r : keeps_links body off (p :: r) -> keeps_links body off r.
Proof. intros K pre q l s s1 b E. apply (K (p :: pre) q l s s1 b). rewrite E. reflexivity. Qed.
Lemma later_tl body off p r : keeps_later body off (p :: r) -> keeps_later body off r.
Proof. intros K pre q l s s1 b E. apply (K (p :: pre) q l s s1 b). rewrite E. reflexivity. Qed.
Lemma chain_same m m1 off r stop : forall a, dw m1 a = dw m a -> (forall q, In q r -> dw m1 (q + off) = dw m (q + off)) -> chain m off a r stop -> chain m1 off a r stop.
Proof.
  induction r as [|q r IH]; intros a Ha Hr; cbn [chain]; [rewrite Ha; auto|]. intros [E C]. split; [congruence|]. apply IH; [apply Hr; left; reflexivity| |exact C]. intros; apply Hr; right; assumption.
Qed.
Lemma visited_cons p r x : visited x r -> visited (cons_result (seen p) x) (p :: r).
Proof.
  intros (s & vis & [[-> ->]|(-> & N & rest & ->)]).
  - exists s, (p :: r). left. split; reflexivity.
  - exists s, (p :: vis). right. split; [reflexivity|]. split; [discriminate|]. exists rest. reflexivity.
Qed.
Lemma while_inv rd c (stop N : Z -> Prop) (body : bodyfun) (I : mem -> Prop) :
  (forall p, N p -> rd p = seen p) -> (forall p e m, N p -> c (mkst p e m) = true) -> (forall v e m, stop v -> c (mkst (fst (rd v)) e m) = false) ->
  forall nodes n s a, (length nodes < n)%nat -> Forall N nodes -> chain (mm s) 4 a nodes stop -> keeps_links body 4 nodes ->
  (forall s s1 b, In (ptr s) nodes -> epd s = u32 (EPD (ptr s)) -> I (mm s) -> body s = (s1, b) -> I (mm s1)) -> I (mm s) ->
  ptr s = fst (rd (dw (mm s) a)) -> epd s = snd (rd (dw (mm s) a)) ->
  exists s' b vis, while n c body (follow rd) s = Some (map seen vis, s', b) /\ I (mm s') /\
    (if b then vis <> [] /\ exists rest, nodes = vis ++ rest else vis = nodes).
Proof.
  intros Hrd Hc Hs. induction nodes as [|p r IH]; intros n s a Hn HN HC HK HI I0 Hp He; (destruct n as [|n]; [cbn [length] in Hn; lia|]); cbn [while]; destruct s as [sp se m]; cbn [ptr epd mm] in *.
  - cbn [chain] in HC. subst sp. rewrite (Hs _ se m HC). eexists _, false, []. split; [reflexivity|]. split; [exact I0|reflexivity].
  - cbn [chain] in HC. destruct HC as [E HC]. assert (Np := Forall_inv HN). assert (Nr := Forall_inv_tail HN). rewrite E, (Hrd p Np) in Hp, He. cbn [seen fst snd] in Hp, He. subst sp se. rewrite (Hc p (u32 (EPD p)) m Np).
    destruct (body (mkst p (u32 (EPD p)) m)) as [s1 b] eqn:B. destruct (HK [] p r (mkst p (u32 (EPD p)) m) s1 b eq_refl eq_refl B) as (K1 & K2 & K3). cbn [ptr epd mm] in *.
    pose proof (HI (mkst p (u32 (EPD p)) m) s1 b (or_introl eq_refl) eq_refl I0 B) as I1. destruct b.
    + exists s1, true, [p]. split; [reflexivity|]. split; [exact I1|]. split; [discriminate|]. exists r. reflexivity.
    + destruct (IH n (follow rd s1) (p + 4)) as (s' & b & vis & R & I2 & V); [cbn [length] in Hn; lia|exact Nr| |eapply keeps_tl; exact HK| | | | |].
      * cbn [follow load mm]. apply (chain_same m); [apply K3; left; reflexivity|intros; apply K3; right; assumption|exact HC].
      * intros t t1 b' Ht. apply HI. right. exact Ht.
      * exact I1.
      * unfold follow, load. cbn [ptr mm]. rewrite K2. rewrite (field _ p 1 4) by reflexivity. reflexivity.
      * unfold follow, load. cbn [epd mm]. rewrite K2. rewrite (field _ p 1 4) by reflexivity. reflexivity.
      * rewrite R. exists s', b, (p :: vis). split; [reflexivity|]. split; [exact I2|]. destruct b; [|rewrite V; reflexivity]. destruct V as (_ & rest & ->). split; [discriminate|]. exists rest. reflexivity.
Qed.
Lemma while_chain rd c (stop N : Z -> Prop) (body : bodyfun) :
  (forall p, N p -> rd p = seen p) -> (forall p e m, N p -> c (mkst p e m) = true) -> (forall v e m, stop v -> c (mkst (fst (rd v)) e m) = false) ->
  forall nodes n s a, (length nodes < n)%nat -> Forall N nodes -> chain (mm s) 4 a nodes stop -> keeps_links body 4 nodes ->
  ptr s = fst (rd (dw (mm s) a)) -> epd s = snd (rd (dw (mm s) a)) -> visited (while n c body (follow rd) s) nodes.
Proof.
  intros Hrd Hc Hs nodes n s a Hn HN HC HK Hp He.
  destruct (while_inv rd c stop N body (fun _ => True) Hrd Hc Hs nodes n s a Hn HN HC HK (fun _ _ _ _ _ _ _ => I) I Hp He) as (s' & b & vis & R & _ & V).
  exists s', vis. destruct b; [right|left]; auto.
Qed.

(* ---- EUDLoopList ---- *)
Theorem C67_list : forall header body m nodes n, Forall (fun p => 0 < p <= 0x7FFFFFFF) nodes ->
  chain m 4 header nodes (fun v => v = 0 \/ 0x7FFFFFFF < v) -> keeps_links body 4 nodes -> (length nodes < n)%nat ->
  visited (EUDLoopList n header None body m) nodes.
Proof.
  intros header body m nodes n HN HC HK Hn. unfold EUDLoopList.
  apply (while_chain dwepd (list_cond None) (fun v => v = 0 \/ 0x7FFFFFFF < v) (fun p => 0 < p <= 0x7FFFFFFF)) with (a := header); auto.
  - intros p _. unfold dwepd, seen. rewrite epd_u32. reflexivity.
  - intros p e m0 Hp. cbn [list_cond ptr]. lia.
  - intros v e m0 Hv. cbn [list_cond ptr dwepd fst]. lia.
Qed.
Print Assumptions C67_list.
Theorem C67_list_break : forall header brk body m nodes n, Forall (fun p => 0 <= p < 2^32 /\ p <> u32 brk) nodes ->
  chain m 4 header nodes (fun v => v = u32 brk) -> keeps_links body 4 nodes -> (length nodes < n)%nat ->
  visited (EUDLoopList n header (Some brk) body m) nodes.
Proof.
  intros header brk body m nodes n HN HC HK Hn. unfold EUDLoopList.
  apply (while_chain dwepd (list_cond (Some brk)) (fun v => v = u32 brk) (fun p => 0 <= p < 2^32 /\ p <> u32 brk)) with (a := header); auto.
  - intros p _. unfold dwepd, seen. rewrite epd_u32. reflexivity.
  - intros p e m0 [_ Hp]. cbn [list_cond ptr]. apply negb_true_iff, Z.eqb_neq, Hp.
  - intros v e m0 ->. cbn [list_cond ptr dwepd fst]. rewrite Z.eqb_refl. reflexivity.
Qed.
Print Assumptions C67_list_break.

(* ---- EUDLoopUnit ---- *)
(* the reader of unit pointers *)
Lemma cunitepd_results v : results true v cunit_mask cunitepdread_args = [fst (cunitepd v); snd (cunitepd v)] \/ ~ 0 <= v < 2^32.
Proof.
  destruct (Z.lt_ge_cases v 0); [right; lia|]. destruct (Z.lt_ge_cases v (2^32)); [left|right; lia].
  unfold results, cunitepd, cunitepdread_args, outcome. cbn [map andb]. destruct (v =? 0); [reflexivity|]. cbn [fst snd]. f_equal; [rewrite weigh_id by lia; reflexivity|]. f_equal.
  change 4 with (2^2) at 1. rewrite weigh_div by lia. reflexivity.
Qed.
Lemma cunitepd_slot p : unit_ptr p -> cunitepd p = seen p.
Proof.
  intros (i & Hi & ->). destruct (cunitepd_results (slot i)) as [E|N]; [|exfalso; apply N; unfold slot; lia].
  pose proof (C66_cunit_readers i Hi) as H. cbv zeta in H. destruct H as (_ & B & _). fold (slot i) in B. rewrite B in E. unfold seen.
  assert (E1 : fst (cunitepd (slot i)) = slot i) by congruence. assert (E2 : snd (cunitepd (slot i)) = EPD (slot i)) by congruence.
  rewrite (u32_small (EPD (slot i))) by (unfold EPD, slot; lia). rewrite (surjective_pairing (cunitepd (slot i))), E1, E2. reflexivity.
Qed.
Lemma unit_pos p : unit_ptr p -> p <> 0.
Proof. intros (i & Hi & ->). unfold slot. lia. Qed.
Theorem C67_unit : forall body m nodes n, Forall unit_ptr nodes -> chain m 4 0x628430 nodes (fun v => v = 0) -> keeps_links body 4 nodes -> (length nodes < n)%nat ->
  visited (EUDLoopUnit n body m) nodes.
Proof.
  intros body m nodes n HN HC HK Hn. unfold EUDLoopUnit.
  apply (while_chain cunitepd (fun s => negb (ptr s =? 0)) (fun v => v = 0) unit_ptr) with (a := 0x628430); auto.
  - exact cunitepd_slot.
  - intros p e m0 Hp. cbn [ptr]. apply negb_true_iff, Z.eqb_neq, unit_pos, Hp.
  - intros v e m0 ->. reflexivity.
Qed.
Print Assumptions C67_unit.

(* ---- EUDLoopPlayerUnit: the body may unlink the unit and change ptr and epd ---- *)
Definition at_chain (m : mem) (off v : Z) (nodes : list Z) (stop : Z -> Prop) : Prop :=
  match nodes with [] => stop v | p :: r => v = p /\ chain m off (p + off) r stop end.
Lemma chain_at m off a nodes stop : chain m off a nodes stop -> at_chain m off (dw m a) nodes stop.
Proof. destruct nodes; exact (fun H => H). Qed.
Lemma at_same m m1 off v r stop : (forall q, In q r -> dw m1 (q + off) = dw m (q + off)) -> at_chain m off v r stop -> at_chain m1 off v r stop.
Proof.
  destruct r as [|q r]; intros H; cbn [at_chain]; [auto|]. intros [E C]. split; [exact E|]. apply (chain_same m); [apply H; left; reflexivity|intros; apply H; right; assumption|exact C].
Qed.
Lemma player_chain body : forall nodes n s v, (length nodes < n)%nat -> Forall unit_ptr nodes -> at_chain (mm s) 0x6C v nodes (fun v => v = 0) -> keeps_later body 0x6C nodes ->
  ptr s = fst (cunitepd v) -> epd s = snd (cunitepd v) -> visited (player_loop n body s) nodes.
Proof.
  induction nodes as [|p r IH]; intros n s v Hn HN HC HK Hp He; (destruct n as [|n]; [cbn [length] in Hn; lia|]); cbn [player_loop]; destruct s as [sp se m]; cbn [ptr epd mm at_chain] in *.
  - subst v. cbn [cunitepd Z.eqb fst] in Hp. subst sp. eexists _, []. left. split; reflexivity.
  - destruct HC as [-> HC]. assert (Np := Forall_inv HN). assert (Nr := Forall_inv_tail HN). rewrite (cunitepd_slot p Np) in Hp, He. cbn [seen fst snd] in Hp, He. subst sp se.
    destruct (Z.eqb_spec p 0) as [Q|_]; [destruct (unit_pos p Np Q)|]. cbn [negb].
    destruct (body (mkst p (u32 (EPD p)) m)) as [s1 b] eqn:B. pose proof (HK [] p r (mkst p (u32 (EPD p)) m) s1 b eq_refl eq_refl B) as K3. cbn [mm] in *. destruct b.
    + exists s1, [p]. right. split; [reflexivity|]. split; [discriminate|]. exists r. reflexivity.
    + apply (visited_cons p). rewrite (Z.add_comm (0x6C / 4)). rewrite (field _ p (0x6C / 4) 0x6C) by reflexivity.
      apply (IH n _ (dw m (p + 0x6C))); [cbn [length] in Hn; lia|exact Nr| |eapply later_tl; exact HK|reflexivity|reflexivity].
      cbn [mm]. apply (at_same m); [exact K3|]. apply chain_at, HC.
Qed.
Theorem C67_player_unit : forall player body m nodes n, 0 <= player < 12 -> Forall unit_ptr nodes ->
  chain m 0x6C (0x6283F8 + 4 * player) nodes (fun v => v = 0) -> keeps_later body 0x6C nodes -> (length nodes < n)%nat ->
  visited (EUDLoopPlayerUnit n player body m) nodes.
Proof.
  intros player body m nodes n Hp HN HC HK Hn. unfold EUDLoopPlayerUnit.
  assert (E : get m (u32 (cepd 0x6283F8 + player)) = dw m (0x6283F8 + 4 * player)) by (rewrite get_u32; unfold dw, cepd; f_equal; lia).
  apply player_chain with (v := dw m (0x6283F8 + 4 * player)); auto.
  - cbn [load mm]. apply chain_at, HC.
  - unfold load. cbn [ptr]. rewrite E. reflexivity.
  - unfold load. cbn [epd]. rewrite E. reflexivity.
Qed.
Print Assumptions C67_player_unit.

(* ---- EUDLoopUnit2 ---- *)
(* 0x0C: the sprite; 0x4D: the main order *)
Definition alive (unlimiter : bool) (m : mem) (i : Z) : bool :=
  if unlimiter then negb (Z.land (dw m (slot i + 0x4C)) 0xFF00 =? 0) else negb (dw m (slot i + 0x0C) =? 0).
Definition keeps_alive (unlimiter : bool) (body : bodyfun) : Prop :=
  forall i s s1 b, 0 <= i < 1700 -> (ptr s, epd s) = seen (slot i) -> body s = (s1, b) -> forall j, i < j < 1700 -> alive unlimiter (mm s1) j = alive unlimiter (mm s) j.
Definition slots (i k : nat) : list Z := map Z.of_nat (seq i k).
Lemma unit2_run ul body : keeps_alive ul body -> forall k i n m, (i + k = 1700)%nat -> (k < n)%nat ->
  visited (unit2_loop n ul body (slot (Z.of_nat i)) (EPD (slot (Z.of_nat i))) (EPD (slot (Z.of_nat i)) + (if ul then 19 else 3)) (mkst (slot (Z.of_nat i)) (EPD (slot (Z.of_nat i))) m))
    (map slot (filter (alive ul m) (slots i k))).
Proof.
  intros HK. induction k as [|k IH]; intros i n m Hi Hn; (destruct n as [|n]; [lia|]); cbn [unit2_loop ptr epd mm].
  - replace (0x59CCA8 + 336 * 1699 + 1 <=? slot (Z.of_nat i)) with true by (unfold slot; lia). eexists _, []. left. split; reflexivity.
  - replace (0x59CCA8 + 336 * 1699 + 1 <=? slot (Z.of_nat i)) with false by (unfold slot; lia). cbn [negb]. set (z := Z.of_nat i) in *.
    assert (S1 : u32 (slot z + 336) = slot (Z.of_nat (S i))) by (rewrite u32_small by (unfold slot; lia); unfold slot; lia).
    assert (S2 : u32 (EPD (slot z) + 84) = EPD (slot (Z.of_nat (S i)))) by (rewrite u32_small by (unfold slot, EPD; lia); unfold slot, EPD; lia).
    assert (S3 : u32 (EPD (slot z) + (if ul then 19 else 3) + 84) = EPD (slot (Z.of_nat (S i))) + (if ul then 19 else 3)) by (rewrite u32_small by (unfold slot, EPD; destruct ul; lia); unfold slot, EPD; lia).
    rewrite S1, S2, S3. unfold slots. cbn [seq map filter]. fold z.
    assert (D : is_dead ul m (EPD (slot z) + (if ul then 19 else 3)) = negb (alive ul m z)).
    { unfold is_dead, alive, dw. destruct ul; rewrite negb_involutive; (match goal with |- context [get m ?a] => match goal with |- _ = ?r => match r with context [get m ?b] => replace a with b by (unfold EPD; lia) end end end); reflexivity. }
    rewrite D. destruct (alive ul m z) eqn:A; cbn [negb].
    + destruct (body (mkst (slot z) (EPD (slot z)) m)) as [s1 b] eqn:B. cbn [map]. replace (slot z, EPD (slot z)) with (seen (slot z)) by (unfold seen; rewrite u32_small by (unfold EPD, slot; lia); reflexivity). destruct b.
      * exists s1, [slot z]. right. split; [reflexivity|]. split; [discriminate|]. eexists. reflexivity.
      * apply visited_cons. assert (SE : (slot z, EPD (slot z)) = seen (slot z)) by (unfold seen; rewrite u32_small by (unfold EPD, slot; lia); reflexivity). pose proof (HK z (mkst (slot z) (EPD (slot z)) m) _ _ ltac:(lia) SE B) as K. cbn [mm] in K.
        rewrite (filter_ext_in (alive ul m) (alive ul (mm s1))); [apply IH; lia|]. intros j Hj. apply in_map_iff in Hj as (q & <- & Hq). apply in_seq in Hq. symmetry. apply K. lia.
    + apply IH; lia.
Qed.
Theorem C67_unit2 : forall unlimiter body m n, keeps_alive unlimiter body -> (1700 < n)%nat ->
  visited (EUDLoopUnit2 n unlimiter body m) (map slot (filter (alive unlimiter m) (slots 0 1700))).
Proof.
  intros ul body m n HK Hn. pose proof (unit2_run ul body HK 1700 0 n m eq_refl Hn) as H. unfold EUDLoopUnit2. 
  replace (if ul then 0x4C / 4 else 0x0C / 4) with (if ul then 19 else 3) by (destruct ul; reflexivity). exact H.
Qed.
Print Assumptions C67_unit2.

(* ---- EUDLoopSprite ---- *)
Definition head (y : Z) : Z := 0x629688 + 4 * y.
Definition sprite_rows_at (m : mem) (rows : list (list Z)) : Prop :=
  forall y r, nth_error rows y = Some r -> Forall (fun p => 1 <= p < 2^32) r /\ chain m 4 (head (Z.of_nat y)) r (fun v => v = 0).
Definition keeps_sprites (body : bodyfun) (rows : list (list Z)) : Prop :=
  forall s s1 b, In (ptr s) (concat rows) -> epd s = u32 (EPD (ptr s)) -> body s = (s1, b) ->
    ptr s1 = ptr s /\ epd s1 = epd s /\ (forall y, 0 <= y < 256 -> dw (mm s1) (head y) = dw (mm s) (head y)) /\
    forall q, In q (concat rows) -> dw (mm s1) (q + 4) = dw (mm s) (q + 4).
Definition same_lists (rows : list (list Z)) (m m1 : mem) : Prop :=
  (forall y, 0 <= y < 256 -> dw m1 (head y) = dw m (head y)) /\ forall q, In q (concat rows) -> dw m1 (q + 4) = dw m (q + 4).
Lemma sprite_run body all m0 n : keeps_sprites body all -> sprite_rows_at m0 all -> length all = 256%nat -> (forall r, In r all -> (length r < n)%nat) ->
  forall rs y k s, (y + length rs = 256)%nat -> (length rs < k)%nat -> (forall i r, nth_error rs i = Some r -> nth_error all (y + i) = Some r) -> same_lists all m0 (mm s) ->
  exists s' b vis, sprite_rows k n body (cepd 0x629688 + Z.of_nat y) s = Some (map seen (concat vis), s', b) /\
    Forall2 (fun v r => exists rest, r = v ++ rest) vis rs /\ (b = false -> vis = rs).
Proof.
  intros HK HA HL HF. induction rs as [|r rs IH]; intros y k s Hy Hk Hn HS; (destruct k as [|k]; [cbn [length] in Hk; lia|]); cbn [sprite_rows]; cbn [length] in Hy, Hk.
  - replace (cepd 0x629688 + Z.of_nat y <? cepd 0x629688 + 256) with false by lia. eexists _, false, []. split; [reflexivity|]. split; [constructor|reflexivity].
  - replace (cepd 0x629688 + Z.of_nat y <? cepd 0x629688 + 256) with true by lia.
    assert (Hr : nth_error all y = Some r) by (rewrite <- (Nat.add_0_r y); apply Hn; reflexivity). assert (Ir := nth_error_In _ _ Hr).
    assert (Inc : forall q, In q r -> In q (concat all)) by (intros q Hq; apply in_concat; exists r; auto).
    destruct (HA y r Hr) as [HN HC].
    destruct (while_inv dwepd (fun s => 1 <=? ptr s) (fun v => v = 0) (fun p => 1 <= p < 2^32) body (same_lists all m0)) with (nodes := r) (n := n) (s := load dwepd (cepd 0x629688 + Z.of_nat y) (mm s)) (a := head (Z.of_nat y)) as (s1 & b1 & v1 & R1 & S1 & V1).
    + intros p _. unfold dwepd, seen. rewrite epd_u32. reflexivity.
    + intros p e m Hp. cbn [ptr]. lia.
    + intros v e m ->. reflexivity.
    + apply HF, Ir.
    + exact HN.
    + cbn [load mm]. apply (chain_same m0); [apply HS; lia|intros q Hq; apply HS, Inc, Hq|exact HC].
    + intros pre p l t t1 b -> Hp B. injection Hp as Hp1 Hp2. destruct (HK t t1 b) as (K1 & K2 & K3 & K4); [rewrite Hp1; apply Inc; apply in_or_app; right; left; reflexivity|congruence|exact B|].
      split; [exact K1|]. split; [exact K2|]. intros q Hq. apply K4, Inc. apply in_or_app. right. exact Hq.
    + intros t t1 b Ht He [A1 A2] B. destruct (HK t t1 b (Inc _ Ht) He B) as (_ & _ & K3 & K4). split; [intros; rewrite K3 by assumption; apply A1; assumption|intros; rewrite K4 by assumption; apply A2; assumption].
    + exact HS.
    + unfold load. cbn [ptr mm]. unfold dw. do 3 f_equal. unfold cepd, head. lia.
    + unfold load. cbn [epd mm]. unfold dw. do 3 f_equal. unfold cepd, head. lia.
    + rewrite R1. replace (u32 (cepd 0x629688 + Z.of_nat y + 1)) with (cepd 0x629688 + Z.of_nat (S y)) by (rewrite u32_small by (change (cepd 0x629688) with 163017; lia); lia).
      destruct (IH (S y) k s1) as (s2 & b2 & v2 & R2 & F2 & V2); [lia|lia| |exact S1|].
      * intros i q Hi. rewrite Nat.add_succ_comm. apply Hn. exact Hi.
      * rewrite R2. exists s2, (b1 || b2)%bool, (v1 :: v2). split; [cbn [concat]; rewrite map_app; reflexivity|]. split.
        -- constructor; [|exact F2]. destruct b1; [apply V1|]. exists []. rewrite app_nil_r. symmetry. exact V1.
        -- intros Q. apply orb_false_iff in Q as [-> ->]. rewrite V1, (V2 eq_refl). reflexivity.
Qed.
(* every row of sprites in order; a break ends only the row *)
Theorem C67_sprite : forall body m rows k n, length rows = 256%nat -> sprite_rows_at m rows -> keeps_sprites body rows ->
  (256 < k)%nat -> (forall r, In r rows -> (length r < n)%nat) ->
  exists s b vis, EUDLoopSprite k n body m = Some (map seen (concat vis), s, b) /\
    Forall2 (fun v r => exists rest, r = v ++ rest) vis rows /\ (b = false -> vis = rows).
Proof.
  intros body m rows k n HL HA HK Hk HF. unfold EUDLoopSprite. replace (cepd 0x629688) with (cepd 0x629688 + Z.of_nat 0) by lia.
  apply (sprite_run body rows m n HK HA HL HF rows 0 k); [exact HL|rewrite HL; exact Hk|intros i r Hi; exact Hi|]. split; reflexivity.
Qed.
Print Assumptions C67_sprite.

(* ---- EUDLoopNewUnit ---- *)
(* the identifier of a unit: byte 0xA5 of its record; what is recorded for it *)
Definition unit_id (m : mem) (p : Z) : Z := (dw m (p + 0xA4) / 256) mod 256.
Definition recorded (m : mem) (ident p : Z) : Z := get m (ident + (p - 0x59CCA8) / 4) mod 256.
Definition is_new (m : mem) (ident p : Z) : bool := negb (recorded m ident p =? unit_id m p).
(* the new ones before the a-th known one *)
Fixpoint new_ones (new : Z -> bool) (a : Z) (nodes : list Z) : list Z :=
  match nodes with
  | [] => []
  | p :: r => if new p then p :: new_ones new a r else if a <=? 1 then [] else new_ones new (a - 1) r
  end.
(* the table of identifiers lies outside the unit table and the list header *)
Definition apart (ident : Z) : Prop :=
  forall i a, 0 <= i < 1700 -> 0x59CCA8 <= a <= 0x628430 -> idx (ident + 84 * i) <> idx ((a - 0x58A364) / 4).
Definition keeps_new (body : bodyfun) (ident : Z) (nodes : list Z) : Prop :=
  forall s s1 b, In (ptr s) nodes -> epd s = u32 (EPD (ptr s)) -> body s = (s1, b) ->
    ptr s1 = ptr s /\ epd s1 = epd s /\ dw (mm s1) 0x628430 = dw (mm s) 0x628430 /\ forall q, In q nodes ->
      dw (mm s1) (q + 4) = dw (mm s) (q + 4) /\ is_new (mm s1) ident q = is_new (mm s) ident q.
Lemma land255 x : Z.land x 0xFF = x mod 256.
Proof. change 0xFF with (Z.ones 8). apply Z.land_ones. lia. Qed.
Lemma uniq_id m p : uniq_of m (u32 (EPD p)) = unit_id m p.
Proof.
  unfold uniq_of, unit_id. rewrite land255, Z.shiftr_div_pow2 by lia. change (2^8) with 256. do 2 f_equal. rewrite Z.add_comm. apply (field m p (0xA5 / 4) 0xA4). reflexivity.
Qed.
Lemma mark_idx ident i : idx (mark_of ident (u32 (EPD (slot i)))) = idx (ident + 84 * i).
Proof. unfold mark_of. rewrite idx_u32. unfold idx, u32, EPD, slot. change (cepd 0x59CCA8) with 19025. change (0xA5 / 4) with 41. change (2^32) with 4294967296. change (2^30) with 1073741824. lia. Qed.
Lemma recorded_mark m ident i : recorded m ident (slot i) = get m (mark_of ident (u32 (EPD (slot i)))) mod 256.
Proof. unfold recorded. f_equal. apply get_cong. rewrite mark_idx. f_equal. unfold slot. lia. Qed.
Lemma known_new m ident p : unit_ptr p -> known m ident (u32 (EPD p)) = negb (is_new m ident p).
Proof. intros (i & Hi & ->). unfold known, is_new. rewrite negb_involutive, uniq_id, recorded_mark, land255. reflexivity. Qed.
Lemma idx_far a b : - 2^30 < a - b < 2^30 -> idx a = idx b -> a = b.
Proof. unfold idx. change (2^30) with 1073741824. lia. Qed.
Lemma mark_ok m ident p : apart ident -> unit_ptr p ->
  let m1 := upd m (mark_of ident (u32 (EPD p))) (uniq_of m (u32 (EPD p))) in
  (forall a, 0x59CCA8 <= a <= 0x628430 -> dw m1 a = dw m a) /\ is_new m1 ident p = false /\
  forall q, unit_ptr q -> q <> p -> is_new m1 ident q = is_new m ident q.
Proof.
  intros HA (i & Hi & ->) m1.
  assert (D : forall a, 0x59CCA8 <= a <= 0x628430 -> dw m1 a = dw m a).
  { intros a Ha. unfold dw, m1. apply get_upd_ne. rewrite mark_idx. apply HA; assumption. }
  assert (U : forall q, unit_ptr q -> unit_id m1 q = unit_id m q) by (intros q (j & Hj & ->); unfold unit_id; rewrite D by (unfold slot; lia); reflexivity).
  split; [exact D|]. split.
  - unfold is_new. rewrite U by (exists i; auto). rewrite recorded_mark. unfold m1. rewrite get_upd_eq, uniq_id. unfold unit_id.
    assert (B := Z.mod_pos_bound (dw m (slot i + 164) / 256) 256 ltac:(lia)). rewrite u32_small by lia. rewrite Z.mod_mod by lia. rewrite Z.eqb_refl. reflexivity.
  - intros q (j & Hj & ->) N. unfold is_new. rewrite U by (exists j; auto). rewrite !recorded_mark. unfold m1. rewrite get_upd_ne; [reflexivity|]. rewrite !mark_idx. intros Q. apply idx_far in Q; [|lia].
    apply N. f_equal. lia.
Qed.
Lemma keepsn_tl body ident p r : keeps_new body ident (p :: r) -> keeps_new body ident r.
Proof.
  intros K s s1 b Hs He B. destruct (K s s1 b (or_intror Hs) He B) as (K1 & K2 & K3 & K4). split; [exact K1|]. split; [exact K2|]. split; [exact K3|]. intros q Hq. apply K4. right. exact Hq.
Qed.
Lemma new_ext f g a nodes : (forall q, In q nodes -> f q = g q) -> new_ones f a nodes = new_ones g a nodes.
Proof. revert a. induction nodes as [|p r IH]; intros a H; [reflexivity|]. cbn [new_ones]. rewrite (H p) by (left; reflexivity). rewrite !IH by (intros; apply H; right; assumption). reflexivity. Qed.
Lemma new_in new nodes : forall a q, In q (new_ones new a nodes) -> In q nodes.
Proof.
  induction nodes as [|p r IH]; intros a q; cbn [new_ones]; [auto|]. destruct (new p); [intros [->|H]; [left; reflexivity|right; apply (IH a), H]|]. destruct (a <=? 1); [intros []|intros H; right; apply (IH _ _ H)].
Qed.
(* m1 after the walk over nodes that saw vis *)
Definition after (ident : Z) (all vis : list Z) (m m1 : mem) : Prop :=
  dw m1 0x628430 = dw m 0x628430 /\ forall q, In q all -> dw m1 (q + 4) = dw m (q + 4) /\ is_new m1 ident q = is_new m ident q && negb (existsb (Z.eqb q) vis).
Lemma new_run ident allowance body all : apart ident -> Forall unit_ptr all -> keeps_new body ident all ->
  forall nodes n s a tos0, incl nodes all -> (length nodes < n)%nat -> NoDup nodes -> chain (mm s) 4 a nodes (fun v => v = 0) ->
  0 <= tos0 -> (tos0 = 0 \/ tos0 < u32 allowance) ->
  ptr s = fst (cunitepd (dw (mm s) a)) -> epd s = snd (cunitepd (dw (mm s) a)) ->
  exists s' b vis, new_loop n ident allowance body tos0 s = Some (map seen vis, s', b) /\ after ident all vis (mm s) (mm s') /\
    let want := new_ones (is_new (mm s) ident) (u32 allowance - tos0) nodes in
    if b then vis <> [] /\ exists rest, want = vis ++ rest else vis = want.
Proof.
  intros HA HU HKA. induction nodes as [|p r IH]; intros n s a tos0 Hin Hn HD HC Ht0 Ht Hp He; (destruct n as [|n]; [cbn [length] in Hn; lia|]); cbn [new_loop]; destruct s as [sp se m]; cbn [ptr epd mm] in *.
  - cbn [chain] in HC. rewrite HC in Hp. cbn [cunitepd Z.eqb fst] in Hp. subst sp. eexists _, false, []. split; [reflexivity|]. split; [|reflexivity]. split; [reflexivity|]. intros q _. split; [reflexivity|]. cbn [existsb negb]. rewrite andb_true_r. reflexivity.
  - cbn [chain] in HC. destruct HC as [E HC]. rewrite Forall_forall in HU. assert (Ip : In p all) by (apply Hin; left; reflexivity). assert (Np := HU p Ip). assert (Hr : incl r all) by (intros q Hq; apply Hin; right; exact Hq).
    apply NoDup_cons_iff in HD as [HD1 HD2]. rewrite E, (cunitepd_slot p Np) in Hp, He. cbn [seen fst snd] in Hp, He. subst sp se.
    destruct (Z.eqb_spec p 0) as [Q|_]; [destruct (unit_pos p Np Q)|]. cbn [negb]. rewrite (known_new m ident p Np), negb_involutive. cbn [new_ones].
    assert (R := u32_range allowance). cbn [length] in Hn. destruct (is_new m ident p) eqn:NW.
    + set (m1 := upd m _ _). destruct (mark_ok m ident p HA Np) as (M1 & M2 & M3). fold m1 in M1, M2, M3.
      destruct (body (mkst p (u32 (EPD p)) m1)) as [s1 b] eqn:B. destruct (HKA (mkst p (u32 (EPD p)) m1) s1 b Ip eq_refl B) as (K1 & K2 & K0 & K3). cbn [ptr epd mm] in K1, K2, K0, K3.
      assert (Lk : forall q, In q all -> dw m1 (q + 4) = dw m (q + 4)).
      { intros q Hq. apply M1. destruct (HU q Hq) as (i & Hi & ->). unfold slot. lia. }
      assert (AF : after ident all [p] m (mm s1)).
      { split; [rewrite K0; apply M1; lia|]. intros q Hq. destruct (K3 q Hq) as [L1 L2]. split; [rewrite L1; apply Lk, Hq|]. rewrite L2. cbn [existsb]. rewrite orb_false_r. destruct (Z.eqb_spec q p) as [->|N].
        - rewrite M2. cbn [negb]. rewrite andb_false_r. reflexivity.
        - rewrite (M3 q (HU q Hq) N). cbn [negb]. rewrite andb_true_r. reflexivity. }
      destruct b.
      * exists s1, true, [p]. split; [reflexivity|]. split; [exact AF|]. split; [discriminate|]. eexists. reflexivity.
      * destruct (IH n (follow cunitepd s1) (p + 4) tos0) as (s' & b & vis & R1 & A1 & V1); [exact Hr|lia|exact HD2| |exact Ht0|exact Ht| | |].
        -- cbn [follow load mm]. apply (chain_same m); [apply AF, Ip|intros q Hq; apply AF, Hr, Hq|exact HC].
        -- unfold follow, load. cbn [ptr mm]. rewrite K2. rewrite (field _ p 1 4) by reflexivity. reflexivity.
        -- unfold follow, load. cbn [epd mm]. rewrite K2. rewrite (field _ p 1 4) by reflexivity. reflexivity.
        -- rewrite R1. exists s', b, (p :: vis). split; [reflexivity|]. change (mm (follow cunitepd s1)) with (mm s1) in *. split.
           ++ destruct A1 as [A0 A1], AF as [F0 F1]. split; [congruence|]. intros q Hq. destruct (A1 q Hq) as [B1 B2], (F1 q Hq) as [C1 C2]. split; [congruence|]. rewrite B2, C2. cbn [existsb]. rewrite orb_false_r, negb_orb, andb_assoc. reflexivity.
           ++ rewrite (new_ext (is_new (mm s1) ident) (is_new m ident)) in V1.
              ** destruct b; [|rewrite V1; reflexivity]. destruct V1 as (_ & rest & ->). split; [discriminate|]. exists rest. reflexivity.
              ** intros q Hq. destruct AF as [_ F]. destruct (F q (Hr q Hq)) as [_ ->]. cbn [existsb]. rewrite orb_false_r. destruct (Z.eqb_spec q p) as [->|_]; [contradiction|]. apply andb_true_r.
    + assert (T1 : tos0 + 1 < 2^32) by lia. rewrite (u32_small (tos0 + 1)) by lia.
      replace (u32 allowance - tos0 <=? 1) with (u32 allowance <=? tos0 + 1) by lia. destruct (Z.leb_spec (u32 allowance) (tos0 + 1)) as [G|G].
      * eexists _, false, []. split; [reflexivity|]. split; [|reflexivity]. split; [reflexivity|]. intros q _. split; [reflexivity|]. cbn [mm existsb negb]. rewrite andb_true_r. reflexivity.
      * destruct (IH n (follow cunitepd (mkst p (u32 (EPD p)) m)) (p + 4) (tos0 + 1)) as (s' & b & vis & R1 & A1 & V1); [exact Hr|lia|exact HD2|exact HC|lia|right; exact G| | |].
        -- unfold follow, load. cbn [ptr epd mm]. rewrite (field _ p 1 4) by reflexivity. reflexivity.
        -- unfold follow, load. cbn [ptr epd mm]. rewrite (field _ p 1 4) by reflexivity. reflexivity.
        -- exists s', b, vis. split; [exact R1|]. split; [exact A1|]. replace (u32 allowance - tos0 - 1) with (u32 allowance - (tos0 + 1)) by lia. exact V1.
Qed.
(* the new units in the list before the a-th known one, each of them known afterwards *)
Theorem C67_new_unit : forall ident allowance body m nodes n, apart ident -> Forall unit_ptr nodes -> NoDup nodes ->
  chain m 4 0x628430 nodes (fun v => v = 0) -> keeps_new body ident nodes -> (length nodes < n)%nat ->
  let want := new_ones (is_new m ident) (u32 allowance) nodes in
  exists s b vis, EUDLoopNewUnit n ident allowance body m = Some (map seen vis, s, b) /\
    (if b then vis <> [] /\ exists rest, want = vis ++ rest else vis = want) /\
    forall q, In q nodes -> (is_new (mm s) ident q = true <-> is_new m ident q = true /\ ~ In q vis).
Proof.
  intros ident allowance body m nodes n HA HU HD HC HK Hn want. unfold EUDLoopNewUnit.
  destruct (new_run ident allowance body nodes HA HU HK nodes n (load cunitepd (cepd 0x628430) m) 0x628430 0) as (s & b & vis & R & [_ A] & V); try reflexivity; auto; try lia; [apply incl_refl|].
  exists s, b, vis. split; [exact R|]. cbn [load mm] in *. rewrite Z.sub_0_r in V. split; [exact V|]. intros q Hq. destruct (A q Hq) as [_ ->]. rewrite andb_true_iff, negb_true_iff.
  split; intros [H1 H2]; (split; [exact H1|]).
  - intros Hv. assert (existsb (Z.eqb q) vis = true) by (apply existsb_exists; exists q; split; [exact Hv|apply Z.eqb_refl]). congruence.
  - destruct (existsb (Z.eqb q) vis) eqn:X; [|reflexivity]. apply existsb_exists in X as (x & Hx & Q). apply Z.eqb_eq in Q. subst x. contradiction.
Qed.
Print Assumptions C67_new_unit.
Lemma new_twice new new2 : forall nodes a, (forall q, In q nodes -> new2 q = new q && negb (existsb (Z.eqb q) (new_ones new a nodes))) -> NoDup nodes ->
  forall a2, a2 <= a -> new_ones new2 a2 nodes = [].
Proof.
  induction nodes as [|p r IH]; intros a H HD a2 Ha; [reflexivity|]. apply NoDup_cons_iff in HD as [HD1 HD2]. cbn [new_ones] in *. pose proof (H p (or_introl eq_refl)) as H0. destruct (new p) eqn:NP.
  - cbn [existsb] in H0. rewrite Z.eqb_refl in H0. cbn in H0. rewrite H0. destruct (Z.leb_spec a2 1); [reflexivity|]. apply (IH a); [|exact HD2|lia].
    intros q Hq. rewrite (H q (or_intror Hq)). cbn [existsb]. destruct (Z.eqb_spec q p) as [->|_]; [contradiction|]. reflexivity.
  - cbn [andb] in H0. rewrite H0. destruct (Z.leb_spec a2 1); [reflexivity|]. destruct (Z.leb_spec a 1); [lia|]. apply (IH (a - 1)); [|exact HD2|lia]. intros q Hq. apply (H q (or_intror Hq)).
Qed.
(* running it again at once finds nothing new *)
Theorem C67_new_unit_again : forall ident allowance body m nodes n, apart ident -> Forall unit_ptr nodes -> NoDup nodes ->
  chain m 4 0x628430 nodes (fun v => v = 0) -> keeps_new body ident nodes -> (length nodes < n)%nat ->
  forall vis s, EUDLoopNewUnit n ident allowance body m = Some (vis, s, false) ->
  exists s2, EUDLoopNewUnit n ident allowance body (mm s) = Some ([], s2, false).
Proof.
  intros ident allowance body m nodes n HA HU HD HC HK Hn vis s E. unfold EUDLoopNewUnit in *.
  destruct (new_run ident allowance body nodes HA HU HK nodes n (load cunitepd (cepd 0x628430) m) 0x628430 0) as (s' & b & vis' & R & [A0 A] & V); try reflexivity; auto; try lia; [apply incl_refl|].
  cbn [load mm] in *. rewrite R in E. injection E as E1 E2 E3. subst s' b vis. rewrite Z.sub_0_r in V.
  destruct (new_run ident allowance body nodes HA HU HK nodes n (load cunitepd (cepd 0x628430) (mm s)) 0x628430 0) as (s2 & b2 & vis2 & R2 & _ & V2); try reflexivity; auto; try lia; [apply incl_refl| |].
  - cbn [load mm]. apply (chain_same m); [exact A0|intros q Hq; apply A, Hq|exact HC].
  - cbn [load mm] in V2. rewrite Z.sub_0_r in V2. cbv zeta in V2. rewrite (new_twice (is_new m ident) (is_new (mm s) ident) nodes (u32 allowance)) in V2; [|intros q Hq; rewrite <- V; apply A, Hq|exact HD|lia].
    exists s2. rewrite R2. destruct b2; [destruct V2 as [N (rest & Q)]; symmetry in Q; apply app_eq_nil in Q as [Q _]; contradiction|]. subst vis2. reflexivity.
Qed.
Print Assumptions C67_new_unit_again.

(* ---- EUDBreak in EUDLoopSprite goes on with the next row ---- *)
Definition put (l : list (Z * Z)) (m : mem) : mem := fold_right (fun x m => upd m ((fst x - 0x58A364) / 4) (snd x)) m l.
Definition zero_mem : mem := fun _ => 0.
Definition two_rows : mem := put [(head 0, 0x629D98); (head 1, 0x629D98 + 36)] zero_mem.
Theorem C67_sprite_break_refuted :
  ~ forall body m k n t s, (forall s, snd (body s) = true) -> EUDLoopSprite k n body m = Some (t, s, true) -> (length t <= 1)%nat.
Proof.
  intros H. pose proof (H (fun s => (s, true)) two_rows 257%nat 2%nat) as Q.
  destruct (EUDLoopSprite 257 2 (fun s => (s, true)) two_rows) as [[[t s] b]|] eqn:E.
  - assert (L : option_map (fun r => (length (fst (fst r)), snd r)) (EUDLoopSprite 257 2 (fun s => (s, true)) two_rows) = Some (2%nat, true)) by (vm_compute; reflexivity).
    rewrite E in L. cbn [option_map fst snd] in L. injection L as L1 L2. subst b. specialize (Q t s (fun _ => eq_refl) eq_refl). lia.
  - assert (L : match EUDLoopSprite 257 2 (fun s => (s, true)) two_rows with None => false | Some _ => true end = true) by (vm_compute; reflexivity). rewrite E in L. discriminate L.
Qed.
Print Assumptions C67_sprite_break_refuted.

(* ================= concrete cases ================= *)
(* units in slots 3, 1699 and 0; the body counts in the cell 200000 *)
Definition ex_units : list Z := [slot 3; slot 1699; slot 0].
Definition ex_lm : mem := put [(0x628430, slot 3); (slot 3 + 4, slot 1699); (slot 1699 + 4, slot 0);
  (0x6283F8 + 4 * 5, slot 3); (slot 3 + 0x6C, slot 1699); (slot 1699 + 0x6C, slot 0);
  (slot 3 + 12, 1); (slot 0 + 12, 1); (slot 1699 + 12, 7);
  (slot 3 + 0xA4, 0x500); (slot 1699 + 0xA4, 0x600); (slot 0 + 0xA4, 0x700)] zero_mem.
Definition count_body : bodyfun := fun s => (mkst (ptr s) (epd s) (upd (mm s) 200000 (get (mm s) 200000 + 1)), false).
Lemma count_same s s1 b a : count_body s = (s1, b) -> 0x59CCA8 <= a <= 0x630000 -> dw (mm s1) a = dw (mm s) a.
Proof. intros E Ha. unfold count_body in E. injection E as <- _. cbn [mm]. unfold dw. apply get_upd_ne. unfold idx. change (2^30) with 1073741824. lia. Qed.
Lemma ex_units_ok : Forall unit_ptr ex_units.
Proof. repeat constructor; [exists 3|exists 1699|exists 0]; (split; [lia|reflexivity]). Qed.
Lemma ex_in q : In q ex_units -> slot 0 <= q <= slot 1699.
Proof. unfold ex_units, slot. cbn [In]. lia. Qed.
Lemma count_links : keeps_links count_body 4 ex_units.
Proof.
  intros pre p r s s1 b E Hp B. split; [unfold count_body in B; injection B as <- _; reflexivity|]. split; [unfold count_body in B; injection B as <- _; reflexivity|].
  intros q Hq. apply (count_same s s1 b _ B). assert (In q ex_units) as I by (rewrite E; apply in_or_app; right; exact Hq). apply ex_in in I. unfold slot in I. lia.
Qed.
Example C67_unit_example : visited (EUDLoopUnit 4 count_body ex_lm) [slot 3; slot 1699; slot 0].
Proof.
  apply C67_unit; [exact ex_units_ok| |exact count_links|cbn; lia]. vm_compute. auto.
Qed.
(* the body unlinks the unit and changes ptr and epd *)
Definition unlink_body : bodyfun := fun s => (mkst 77 88 (upd (mm s) (u32 (epd s + 27)) 0), false).
Definition alltr (r : result) : option (list (Z * Z)) := option_map (fun r => fst (fst r)) r.
Example C67_player_example : visited (EUDLoopPlayerUnit 4 5 unlink_body ex_lm) [slot 3; slot 1699; slot 0].
Proof.
  apply C67_player_unit; [lia|exact ex_units_ok|vm_compute; auto| |cbn; lia].
  intros pre p r s s1 b E Hp B q Hq. unfold unlink_body in B. injection B as <- _. cbn [mm]. injection Hp as Hp1 Hp2. rewrite Hp2. unfold dw. apply get_upd_ne. rewrite idx_u32.
  assert (N : p <> q /\ In p ex_units /\ In q ex_units).
  { change ([slot 3; slot 1699; slot 0]) with ex_units in E. split; [|rewrite E; split; apply in_or_app; right; [left; reflexivity|right; exact Hq]].
    intros ->. assert (ND : NoDup ex_units) by (repeat constructor; unfold slot; cbn [In]; lia). rewrite E in ND. apply NoDup_remove_2 in ND. apply ND. apply in_or_app. right. exact Hq. }
  destruct N as (N & I1 & I2). unfold ex_units, slot in I1, I2. cbn [In] in I1, I2. unfold idx, u32, EPD. change (2^32) with 4294967296. change (2^30) with 1073741824. lia.
Qed.
Example C67_unit2_example : visited (EUDLoopUnit2 1701 false count_body ex_lm) [slot 0; slot 3; slot 1699].
Proof.
  assert (E : map slot (filter (alive false ex_lm) (slots 0 1700)) = [slot 0; slot 3; slot 1699]) by (vm_compute; reflexivity). rewrite <- E. apply C67_unit2; [|lia].
  intros i s s1 b Hi _ B j Hj. unfold alive. rewrite (count_same s s1 b _ B) by (unfold slot; lia). reflexivity.
Qed.
(* slot 1699 is recorded already, slots 3 and 0 are new; two known ones end the loop *)
Definition ex_nm : mem := upd ex_lm (1000000 + 84 * 1699) 6.
Lemma ex_apart : apart 1000000.
Proof. intros i a Hi Ha. unfold idx. change (2^30) with 1073741824. lia. Qed.
Example C67_new_example : exists s, EUDLoopNewUnit 4 1000000 2 count_body ex_nm = Some ([seen (slot 3); seen (slot 0)], s, false) /\
  exists s2, EUDLoopNewUnit 4 1000000 2 count_body (mm s) = Some ([], s2, false).
Proof.
  assert (HC : chain ex_nm 4 0x628430 ex_units (fun v => v = 0)) by (vm_compute; auto).
  assert (ND : NoDup ex_units) by (repeat constructor; unfold slot; cbn [In]; lia).
  assert (HK : keeps_new count_body 1000000 ex_units).
  { intros s s1 b Hs _ B. split; [unfold count_body in B; injection B as <- _; reflexivity|]. split; [unfold count_body in B; injection B as <- _; reflexivity|]. split; [apply (count_same s s1 b _ B); lia|].
    intros q Hq. apply ex_in in Hq. unfold slot in Hq. split; [apply (count_same s s1 b _ B); lia|]. unfold is_new, unit_id, recorded. rewrite (count_same s s1 b _ B) by lia. do 3 f_equal.
    unfold count_body in B. injection B as <- _. cbn [mm]. apply get_upd_ne. unfold idx. change (2^30) with 1073741824. lia. }
  destruct (C67_new_unit 1000000 2 count_body ex_nm ex_units 4 ex_apart ex_units_ok ND HC HK) as (s & b & vis & R & V & _); [cbn; lia|].
  assert (W : new_ones (is_new ex_nm 1000000) (u32 2) ex_units = [slot 3; slot 0]) by (vm_compute; reflexivity). rewrite W in V.
  assert (F : match EUDLoopNewUnit 4 1000000 2 count_body ex_nm with Some (_, _, false) => true | _ => false end = true) by (vm_compute; reflexivity). rewrite R in F. destruct b; [discriminate F|].
  subst vis. exists s. split; [exact R|]. exact (C67_new_unit_again 1000000 2 count_body ex_nm ex_units 4 ex_apart ex_units_ok ND HC HK ltac:(cbn; lia) _ s R).
Qed.
Example C67_sprite_example : exists s, EUDLoopSprite 257 2 count_body two_rows = Some ([seen 0x629D98; seen (0x629D98 + 36)], s, false).
Proof.
  destruct (C67_sprite count_body two_rows ([[0x629D98]; [0x629D98 + 36]] ++ repeat [] 254) 257 2) as (s & b & vis & R & _ & V).
  - reflexivity.
  - intros y r Hy. destruct y as [|[|y]]; [injection Hy as <-|injection Hy as <-|].
    + split; [constructor; [lia|constructor]|vm_compute; auto].
    + split; [constructor; [lia|constructor]|vm_compute; auto].
    + assert (r = []) as ->. { cbn [app nth_error] in Hy. apply nth_error_In in Hy. apply repeat_spec in Hy. exact Hy. }
      split; [constructor|]. cbn [chain]. assert (L : (y < 254)%nat) by (cbn [app nth_error] in Hy; rewrite <- (repeat_length (@nil Z) 254); apply nth_error_Some; congruence).
      unfold two_rows, put. cbn [fold_right fst snd]. unfold dw. rewrite !get_upd_ne; [reflexivity| |]; unfold idx, head; change (2^30) with 1073741824; lia.
  - intros s s1 b Hs _ B. split; [unfold count_body in B; injection B as <- _; reflexivity|]. split; [unfold count_body in B; injection B as <- _; reflexivity|].
    split; [intros y Hy; apply (count_same s s1 b _ B); unfold head; lia|]. intros q Hq. assert (q = 0x629D98 \/ q = 0x629D98 + 36) as Q.
    { apply in_concat in Hq as (r & Hr & Hq). apply in_app_or in Hr as [Hr|Hr]; [destruct Hr as [<-|[<-|[]]]; destruct Hq as [<-|[]]; auto|]. apply repeat_spec in Hr. subst r. destruct Hq. }
    apply (count_same s s1 b _ B). lia.
  - lia.
  - intros r Hr. apply in_app_or in Hr as [Hr|Hr]; [destruct Hr as [<-|[<-|[]]]; cbn; lia|]. apply repeat_spec in Hr. subst r. cbn. lia.
  - assert (F : match EUDLoopSprite 257 2 count_body two_rows with Some (_, _, false) => true | _ => false end = true) by (vm_compute; reflexivity). rewrite R in F. destruct b; [discriminate F|].
    exists s. rewrite R, (V eq_refl). reflexivity.
Qed.
