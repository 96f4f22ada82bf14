(* C60: logical connectives and short-circuit evaluation. *)
From Coq Require Import ZArith Lia List Bool Permutation ZifyBool ZifyNat.
From Verif Require Import Lib Word Machine MachineProofs VarModel VarSpec VarProofs OpsBase OpsModel FuncModel EpdModel ExWorld.
From Verif Require Import StruModel StruSpec StruProofs StruComp StruMain LogicModel LogicProofs LogicLeaf PropStru.
Import ListNotations.
Open Scope Z_scope.

(* ---------- conditions on one cell ---------- *)
Lemma land_bit d i : 0 <= i -> Z.land d (2^i) = if Z.testbit d i then 2^i else 0.
Proof.
  intros Hi. apply Z.bits_inj'. intros n Hn. rewrite Z.land_spec, Z.pow2_bits_eqb by lia. destruct (Z.eqb_spec i n) as [<-|N].
  - destruct (Z.testbit d i); [rewrite Z.pow2_bits_true by lia; reflexivity|rewrite Z.bits_0; reflexivity].
  - rewrite andb_false_r. destruct (Z.testbit d i); [rewrite Z.pow2_bits_false by lia|rewrite Z.bits_0]; reflexivity.
Qed.
Lemma condMX_eval m a cm n k : plain a ->
  cond_ok m (CondMX a cm n k) /\ cond_type (rd m (c_w3 (CondMX a cm n k))) <> 0 /\ eval_cond m (CondMX a cm n k) = do_cmp cm (Z.land (get m a) (u32 k)) (u32 n).
Proof.
  intros Hp. destruct (conds_one_MX m a cm n k Hp) as [C1 C2]. cbn [conds_ok eval_conds] in C1, C2.
  destruct (w3_facts cm) as (_ & W2 & _). change (rd m (c_w3 (CondMX a cm n k))) with (u32 (enc_cmp cm * 2^16 + 15 * 2^24)) in *. rewrite W2 in *.
  cbn [Z.eqb] in C2. rewrite andb_true_r in C2. destruct C1 as [C1|[C1 _]]; [lia|]. split; [exact C1|]. split; [lia|exact C2].
Qed.
Lemma condM_eval m a cm n : plain a -> eval_cond m (CondM a cm n) = do_cmp cm (get m a) (u32 n).
Proof.
  intros Hp. destruct (conds_one_M m a cm n Hp) as [_ C2]. cbn [eval_conds] in C2.
  destruct (w3_facts cm) as (_ & W2 & _). change (rd m (c_w3 (CondM a cm n))) with (u32 (enc_cmp cm * 2^16 + 15 * 2^24)) in *. rewrite W2 in *.
  cbn [Z.eqb] in C2. rewrite andb_true_r in C2. exact C2.
Qed.
Lemma condMX_good L s a cm n k : plain a -> ~ priv L s a -> cgood L s (CondMX a cm n k).
Proof.
  intros Hp Hn m1 m A. destruct (condMX_eval m1 a cm n k Hp) as (Q1 & Q2 & Q3). split; [exact Q1|]. split; [exact Q2|].
  rewrite Q3. destruct (condMX_eval m a cm n k Hp) as (_ & _ & ->). rewrite (A a Hn). reflexivity.
Qed.
(* an EUDLightBool used as a condition: its bit *)
Lemma isset_eval m e i : plain e -> 0 <= i < 32 -> eval_cond m (lb_IsSet e (2^i)) = Z.testbit (get m e) i.
Proof.
  intros He Hi. unfold lb_IsSet. destruct (condMX_eval m e AtLeast 1 (2^i) He) as (_ & _ & ->).
  assert (P : 0 < 2^i < 2^32) by (split; [apply Z.pow_pos_nonneg; lia|apply Z.pow_lt_mono_r; lia]). rewrite (u32_small (2^i)) by lia. change (u32 1) with 1.
  cbn [do_cmp]. rewrite land_bit by lia. destruct (Z.testbit (get m e) i); lia.
Qed.
Lemma get_set_bit e i b m : 0 <= i < 32 -> Z.testbit (get (set_bit e i b m) e) i = b.
Proof.
  intros Hi. unfold set_bit. rewrite get_upd_same by reflexivity.
  assert (R : 0 <= get m e < 2^32) by apply get_range. unfold u32. rewrite Z.mod_pow2_bits_low by lia.
  destruct b; [apply Z.setbit_eq; lia|apply Z.clearbit_eq].
Qed.

(* ---------- EUDSCOr ---------- *)
(* The arguments are evaluated from left to right up to the first one that
   holds; the code of the arguments after it is not run. The EUDLightBool, bit i
   of the dword at e, is 1 exactly if one holds. Memory afterwards is what the
   evaluation left, apart from this bit. The arguments may contain code of any
   kind; none of it may change the bit. *)
Theorem C60_sc_or e i l s w L x :
  EUDSCOr e (2^i) l start = Some s -> (forall t, In t l -> test_inv t) -> forallb closed l = true ->
  linked w L s -> (forall f, In f (b_pend s) -> L_F L f = x) ->
  writable w e -> ~ priv L s e -> 0 <= i < 32 -> (forall t, In t l -> test_good w L s t) ->
  forall m b m2, evals true l (set_bit e i false m) b m2 -> Z.testbit (get m2 e) i = false ->
  forall m1, sim L s m1 m ->
  exists m1', runs w (pa (L_F L 0%nat), m1) (pa x, m1') /\ sim L s m1' (if b then set_bit e i true m2 else m2) /\
    Z.testbit (get m1' e) i = b /\ eval_cond m1' (lb_IsSet e (2^i)) = b.
Proof.
  intros HC HV Hcl HL Hx He Hn Hi HG m b m2 HE Hb m1 HS.
  assert (EC : comp None (SLeaf (or_leaf e i l)) start = Some s) by (cbn [comp or_leaf lf_emit]; rewrite HC; reflexivity).
  assert (LI : leaf_inv (fst (parts (SLeaf (or_leaf e i l))))) by (intros c [<-|[]] h s0; apply or_leaf_inv; exact HV).
  assert (ND : NoDup (map fst (b_init s))). { destruct (C20_generates (SLeaf (or_leaf e i l))) as (_ & _ & GI). apply (GI LI s EC). }
  destruct (C20_structured (SLeaf (or_leaf e i l)) s w L x EC LI HL Hx) with (m := m) (m' := if b then set_bit e i true m2 else m2) (m1 := m1) as (m1' & R1 & S1); auto.
  - split; [intros c [<-|[]]; apply or_leaf_good; auto|intros c []].
  - split; [reflexivity|]. exists b, m2. split; [exact HE|reflexivity].
  - exists m1'. split; [exact R1|]. split; [exact S1|].
    assert (T : Z.testbit (get m1' e) i = b) by (rewrite (proj1 S1 e Hn); destruct b; [apply get_set_bit; lia|exact Hb]).
    split; [exact T|]. rewrite isset_eval; [exact T|apply He|exact Hi].
Qed.
Print Assumptions C60_sc_or.

(* ---------- EUDSCAnd ---------- *)
Lemma const_evals l m b m2 : forallb const_test l = true -> (forall t, In t l -> exists L s, flip_ok L s t) -> evals false l m b m2 ->
  m2 = m /\ forallb (eval_cond m) (concat (map result_conds l)) = b.
Proof.
  induction l as [|t r IH]; intros HC FO H.
  - inversion H; subst. auto.
  - cbn [forallb] in HC. apply andb_true_iff in HC. destruct HC as [H1 H2]. destruct (FO t (or_introl eq_refl)) as (L & s & F).
    apply (evals_const L s t r m b m2 H1 F) in H. cbn [map concat]. rewrite forallb_app. destruct (forallb (eval_cond m) (result_conds t)).
    + apply IH; auto. intros u Hu. apply FO. right. exact Hu.
    + destruct H as [-> ->]. auto.
Qed.
(* the memory in which the evaluation starts, and the one after storing the answer *)
Definition and_start (v : Z) (l : list test) (m : mem) : mem := if forallb const_test l then m else upd m v 1.
Definition and_end (v : Z) (l : list test) (b : bool) (m : mem) : mem := if forallb const_test l then m else if b then m else upd m v 0.
(* the code of the arguments does not change the result variable *)
Definition and_kept (v : Z) (l : list test) (m2 : mem) : Prop := forallb const_test l = true \/ get m2 v = 1.
Lemma and_meaning v l m b m2 : (forall t, In t l -> exists L s, flip_ok L s t) ->
  evals false l (and_start v l m) b m2 -> and_means v l m (and_end v l b m2).
Proof.
  intros FO HE. unfold and_means, and_start, and_end in *. destruct (forallb const_test l) eqn:E.
  - apply (const_evals l m b m2 E FO HE).
  - exists b, m2. auto.
Qed.
Lemma and_answer v l m b m2 : (forall t, In t l -> exists L s, flip_ok L s t) -> plain v ->
  evals false l (and_start v l m) b m2 -> and_kept v l m2 -> holds false (and_conds v l) (and_end v l b m2) = b.
Proof.
  intros FO Hv HE HK. unfold and_start, and_end, and_kept, and_conds, holds in *. destruct (forallb const_test l) eqn:E.
  - destruct (const_evals l m b m2 E FO HE) as [-> H]. rewrite H. destruct b; reflexivity.
  - destruct HK as [HK|HK]; [discriminate|]. cbn [forallb]. rewrite andb_true_r, condM_eval by exact Hv. cbn [do_cmp]. change (u32 1) with 1. destruct b.
    + rewrite HK. reflexivity.
    + rewrite get_upd_same by reflexivity. reflexivity.
Qed.

(* The arguments are evaluated from left to right up to the first one that does
   not hold. The conditions returned hold afterwards exactly if all arguments
   hold. Memory is what the evaluation left, apart from the result variable
   (value at EPD v), which the code of the arguments must leave alone. *)
Theorem C60_sc_and v l res s w L x :
  EUDSCAnd v l start = Some (res, s) -> (forall t, In t l -> test_inv t) -> forallb closed l = true ->
  linked w L s -> (forall f, In f (b_pend s) -> L_F L f = x) ->
  writable w v -> ~ priv L s v -> (forall t, In t l -> and_good w L s t) ->
  forall m b m2, evals false l (and_start v l m) b m2 -> and_kept v l m2 ->
  forall m1, sim L s m1 m ->
  exists m1', runs w (pa (L_F L 0%nat), m1) (pa x, m1') /\ sim L s m1' (and_end v l b m2) /\ holds false res m1' = b.
Proof.
  intros HC HV Hcl HL Hx He Hn HG m b m2 HE HK m1 HS.
  assert (EC : comp None (SLeaf (and_leaf v l)) start = Some s) by (cbn [comp and_leaf lf_emit]; rewrite HC; reflexivity).
  assert (LI : leaf_inv (fst (parts (SLeaf (and_leaf v l))))) by (intros c [<-|[]] h s0; apply and_leaf_inv; exact HV).
  assert (ND : NoDup (map fst (b_init s))). { destruct (C20_generates (SLeaf (and_leaf v l))) as (_ & _ & GI). apply (GI LI s EC). }
  assert (FO : forall t, In t l -> exists L s, flip_ok L s t) by (intros t Ht; exists L, s; apply (HG t Ht)).
  assert (ER : res = and_conds v l).
  { destruct (impl_and w L s HL ND v (fun m => upd m v 1) (fun m => upd m v 0)) with (l := l) (en := @None (nat * nat)) (s := start) (s' := s) (res := res) as [_ R]; auto; apply writes_num; auto; lia. }
  assert (GC : forall c, In c res -> cgood L s c).
  { rewrite ER. unfold and_conds. destruct (forallb const_test l).
    - intros c Hc. apply in_concat in Hc. destruct Hc as (cs & Hcs & Hc). apply in_map_iff in Hcs. destruct Hcs as (t & <- & Ht). destruct (HG t Ht) as (G1 & G2 & _).
      unfold result_conds in Hc. destruct (t_neg t); [|apply G1; exact Hc]. destruct (t_flip t) as [c'|] eqn:F; [|destruct Hc]. destruct Hc as [<-|[]]. apply (G2 c' F).
    - intros c [<-|[]]. apply condM_good; [apply He|exact Hn]. }
  destruct (C20_structured (SLeaf (and_leaf v l)) s w L x EC LI HL Hx) with (m := m) (m' := and_end v l b m2) (m1 := m1) as (m1' & R1 & S1); auto.
  - split; [intros c [<-|[]]; apply and_leaf_good; auto|intros c []].
  - split; [reflexivity|]. apply and_meaning; assumption.
  - exists m1'. split; [exact R1|]. split; [exact S1|].
    rewrite <- (and_answer v l m b m2 FO (proj1 He) HE HK). rewrite <- ER. unfold holds. f_equal.
    clear - GC S1. induction res as [|c r IH]; [reflexivity|]. cbn [forallb]. rewrite (proj2 (proj2 (GC c (or_introl eq_refl) _ _ (proj1 S1)))).
    f_equal. apply IH. intros k Hk. apply GC. right. exact Hk.
Qed.
Print Assumptions C60_sc_and.

(* no code at all if all arguments are conditions without variables in them that
   can be negated where needed *)
Theorem C60_sc_and_free v l s res s' : forallb const_test l = true -> EUDSCAnd v l s = Some (res, s') -> b_trs s' = b_trs s /\ res = concat (map result_conds l).
Proof.
  assert (Q : forall l a s a' s', sa_const a = true -> b_pend s = [sa_side a] -> forallb const_test l = true -> sa_calls v l a s = Some (a', s') ->
    s' = s /\ sa_const a' = true /\ sa_cond a' = sa_cond a ++ concat (map result_conds l)).
  { clear. induction l as [|t r IH]; intros a s a' s' HA Hp HC H; cbn [sa_calls] in H.
    - injection H as <- <-. cbn. rewrite app_nil_r. auto.
    - cbn [forallb] in HC. apply andb_true_iff in HC. destruct HC as [H1 H2]. unfold const_test in H1. cbn [map concat]. unfold result_conds at 1.
      destruct (t_pre t); [discriminate|]. cbn [opt_comp bindo] in H. unfold sa_call in H. rewrite HA, Hp, only_self in H. cbn [negb] in H.
      destruct (t_patch t); [discriminate|]. destruct (t_neg t); [destruct (t_flip t) as [c|]; [|discriminate]|]; cbn [bindo fst snd] in H;
        (apply IH in H; [|exact HA|exact Hp|exact H2]); destruct H as (-> & A & B); cbn [sa_add sa_cond] in B; rewrite <- app_assoc in B; auto. }
  intros HC H. unfold EUDSCAnd, sa_new in H. cbn [PushTriggerScope NextTrigger b_nf b_pend app] in H. cbv iota beta zeta in H.
  apply bindo_some in H. destruct H as ([a' s1] & E & H). apply Q in E; [|reflexivity|reflexivity|exact HC]. destruct E as (-> & A & B).
  cbn [fst snd] in H. unfold sa_result in H. rewrite A in H. cbv beta iota in H. cbn [sa_cond app] in B.
  change (Some (sa_cond a', PopTriggerScope (sa_outer a') (mkbs (b_trs s) [b_nf s] (b_sets s) (S (b_nf s)) (b_nd s) (b_init s))) = Some (res, s')) in H. split; [|congruence].
  assert (ES : s' = PopTriggerScope (sa_outer a') (mkbs (b_trs s) [b_nf s] (b_sets s) (S (b_nf s)) (b_nd s) (b_init s))) by congruence. rewrite ES. reflexivity.
Qed.
Print Assumptions C60_sc_and_free.

(* as the condition of an if *)
Theorem C60_if_and neg v l body rest m b m2 o m' : (forall t, In t l -> exists L s, flip_ok L s t) -> plain v ->
  evals false l (and_start v l m) b m2 -> and_kept v l m2 ->
  (if xorb neg b then den body (and_end v l b m2) o m' else den_chain rest (and_end v l b m2) o m') ->
  den (SIf neg (SLeaf (and_leaf v l)) (and_conds v l) body rest) m o m'.
Proof.
  intros FO Hv HE HK H. cbn [den]. right. exists (and_end v l b m2). split; [split; [reflexivity|apply and_meaning; assumption]|].
  pose proof (and_answer v l m b m2 FO Hv HE HK) as HA. unfold if_rel. assert (HN : holds neg (and_conds v l) (and_end v l b m2) = xorb neg b).
  { unfold holds in *. revert HA. generalize (forallb (eval_cond (and_end v l b m2)) (and_conds v l)). intros X <-. destruct neg, X; reflexivity. }
  rewrite HN. destruct (xorb neg b); exact H.
Qed.
Theorem C60_if_or neg e i l body rest m b m2 o m' : plain e -> 0 <= i < 32 ->
  evals true l (set_bit e i false m) b m2 -> Z.testbit (get m2 e) i = false ->
  (let m3 := if b then set_bit e i true m2 else m2 in if xorb neg b then den body m3 o m' else den_chain rest m3 o m') ->
  den (SIf neg (SLeaf (or_leaf e i l)) [lb_IsSet e (2^i)] body rest) m o m'.
Proof.
  intros He Hi HE HK H. cbv zeta in H. cbn [den]. right. exists (if b then set_bit e i true m2 else m2). split; [split; [reflexivity|exists b, m2; auto]|].
  unfold if_rel. assert (HN : holds neg [lb_IsSet e (2^i)] (if b then set_bit e i true m2 else m2) = xorb neg b).
  { unfold holds. cbn [forallb]. rewrite andb_true_r, isset_eval by auto. destruct b; [rewrite get_set_bit by lia|rewrite HK]; reflexivity. }
  rewrite HN. destruct (xorb neg b); exact H.
Qed.
Print Assumptions C60_if_and.
Print Assumptions C60_if_or.

(* ---------- EUDOr, EUDAnd, EUDNot ---------- *)
Definition bit_leaf (e i : Z) (b : bool) : leaf := raw_leaf [if b then lb_Set e (2^i) else lb_Clear e (2^i)] (fun m m' => m' = set_bit e i b m).
Lemma bit_leaf_good w L s e i b : linked w L s -> writable w e -> ~ priv L s e -> 0 <= i < 32 -> lgood w L s (bit_leaf e i b).
Proof. intros HL He Hn Hi en s0. apply (impl_write w L s HL). apply writes_bit; auto. Qed.
Lemma bit_leaf_inv e i b h s : inv h s -> inv h (lf_emit (bit_leaf e i b) s).
Proof. apply inv_raw. Qed.

Lemma else_ifs_means neg conds (hit miss : leaf) m m' :
  den_chain (else_ifs neg conds hit miss) m Norm m' <-> if existsb (fun cs => holds neg cs m) conds then lf_sem hit m m' else lf_sem miss m m'.
Proof.
  assert (SK : forall A m o m', seq_rel skip_rel A m o m' <-> A m o m').
  { clear. intros A m o m'. unfold seq_rel, skip_rel. split; [intros [[N [E _]]|(x & [_ ->] & H)]; [congruence|exact H]|]. intros H. right. exists m. auto. }
  induction conds as [|cs r IH]; cbn [else_ifs den_chain den existsb].
  - unfold done. intuition.
  - rewrite SK. unfold if_rel. destruct (holds neg cs m); cbn [orb]; [unfold done; intuition|exact IH].
Qed.
Lemma if_means neg cs conds (hit miss : leaf) m m' :
  den (SIf neg SSkip cs (SLeaf hit) (else_ifs neg conds hit miss)) m Norm m' <-> if existsb (fun cs => holds neg cs m) (cs :: conds) then lf_sem hit m m' else lf_sem miss m m'.
Proof. exact (else_ifs_means neg (cs :: conds) hit miss m m'). Qed.
(* 1 exactly if one of the arguments holds; 1 exactly if all hold *)
Theorem C60_or_and e i cond1 conds m m' :
  (den (EUDOr (bit_leaf e i true) (bit_leaf e i false) cond1 conds) m Norm m' <-> m' = set_bit e i (existsb (forallb (eval_cond m)) (cond1 :: conds)) m) /\
  (den (EUDAnd (bit_leaf e i true) (bit_leaf e i false) cond1 conds) m Norm m' <-> m' = set_bit e i (forallb (forallb (eval_cond m)) (cond1 :: conds)) m).
Proof.
  split.
  - unfold EUDOr. rewrite if_means. cbn [bit_leaf raw_leaf lf_sem].
    assert (E : existsb (fun cs => holds false cs m) (cond1 :: conds) = existsb (forallb (eval_cond m)) (cond1 :: conds)).
    { induction (cond1 :: conds) as [|c r IH]; [reflexivity|]. cbn [existsb]. rewrite IH. unfold holds. destruct (forallb (eval_cond m) c); reflexivity. }
    rewrite E. clear E. destruct (existsb (forallb (eval_cond m)) (cond1 :: conds)); reflexivity.
  - unfold EUDAnd. rewrite if_means. cbn [bit_leaf raw_leaf lf_sem].
    assert (E : existsb (fun cs => holds true cs m) (cond1 :: conds) = negb (forallb (forallb (eval_cond m)) (cond1 :: conds))).
    { induction (cond1 :: conds) as [|c r IH]; [reflexivity|]. cbn [existsb forallb]. rewrite IH. unfold holds. destruct (forallb (eval_cond m) c); reflexivity. }
    rewrite E. clear E. destruct (forallb (forallb (eval_cond m)) (cond1 :: conds)); reflexivity.
Qed.
Print Assumptions C60_or_and.
(* EUDNot of conditions that negate_cond does not take: the condition may not look at the fresh bit *)
Theorem C60_not_bit e i cs m : 0 <= i < 32 -> forallb (eval_cond (set_bit e i true m)) cs = forallb (eval_cond m) cs ->
  exists m', den (EUDNot_conds (bit_leaf e i true) (bit_leaf e i false) cs) m Norm m' /\
    forall a, get m' a = get (set_bit e i (negb (forallb (eval_cond m) cs)) m) a.
Proof.
  intros Hi HK. exists (if forallb (eval_cond m) cs then set_bit e i false (set_bit e i true m) else set_bit e i true m).
  split.
  - unfold EUDNot_conds. cbn [den den_chain]. right. exists (set_bit e i true m). split; [split; reflexivity|]. right. exists (set_bit e i true m).
    split; [split; reflexivity|]. unfold if_rel, holds. rewrite HK. destruct (forallb (eval_cond m) cs); split; reflexivity.
  - intros a. destruct (forallb (eval_cond m) cs); cbn [negb]; [|reflexivity]. unfold set_bit at 1 3. destruct (Z.eq_dec (idx a) (idx e)) as [E|E].
    + rewrite !get_upd_same by exact E. f_equal. unfold set_bit. rewrite get_upd_same by reflexivity.
      assert (R : 0 <= get m e < 2^32) by apply get_range.
      assert (R2 : 0 <= Z.setbit (get m e) i < 2^32).
      { rewrite Z.setbit_spec'. apply lor_range; [lia|lia|]. split; [apply Z.pow_nonneg; lia|apply Z.pow_lt_mono_r; lia]. }
      rewrite (u32_small _ R2). apply Z.bits_inj'. intros n Hn. rewrite !Z.clearbit_eqb, Z.setbit_eqb by lia. destruct (Z.eqb_spec i n), (Z.testbit (get m e) n); reflexivity.
    + rewrite !get_upd_ne by congruence. unfold set_bit. rewrite get_upd_ne by congruence. reflexivity.
Qed.
Print Assumptions C60_not_bit.

(* EUDNot of a variable: 1 if it is 0, else 0 *)
Definition not_leaf (u v : Z) : leaf := mkleaf (EUDNot_var u v) (fun m m' => forall a, get m' a = get (upd m v (if get m u =? 0 then 1 else 0)) a).
Lemma not_leaf_good w L s u v : linked w L s -> plain u -> writable w v -> idx u <> idx v -> ~ priv L s u -> ~ priv L s v -> lgood w L s (not_leaf u v).
Proof.
  intros HL Hu Hv Huv Nu Nv en s0. cbn [not_leaf lf_emit lf_sem]. unfold EUDNot_var.
  pose proof (impl_seq w L s _ _ _ _ _ _ (impl_write w L s HL (SetNumber v 0) (fun m => upd m v 0) en s0 (writes_num w L s v 0 Hv Nv ltac:(lia)))
    (impl_write_if w L s HL (SetNumber v 1) (fun m => upd m v 1) (CondM u Exactly 0) en (RawTrigger [] (fun _ => [SetNumber v 0]) s0) (condM_good L s u Exactly 0 Hu Nu) (writes_num w L s v 1 Hv Nv ltac:(lia)))) as (E & P & A).
  split; [exact E|]. split; [intros N _; cbn; discriminate|]. intros X x Hx. destruct (A X x Hx) as (a & Pa & Aa). exists a. split; [exact Pa|].
  intros N m o m' [-> Q] m1 Hs.
  destruct (Aa N m Norm (if eval_cond (upd m v 0) (CondM u Exactly 0) then upd (upd m v 0) v 1 else upd m v 0)) with (m1 := m1) as (m2 & R1 & [S1 S2] & K1); [|exact Hs|].
  - right. exists (upd m v 0). split; split; reflexivity.
  - exists m2. split; [exact R1|]. split; [|exact K1]. split; [|exact S2]. intros b Hb. rewrite (S1 b Hb), Q.
    rewrite condM_eval by exact Hu. rewrite get_upd_ne by congruence. cbn [do_cmp]. change (u32 0) with 0.
    destruct (get m u =? 0); destruct (Z.eq_dec (idx b) (idx v)) as [Eb|Eb]; rewrite ?(get_upd_same _ _ b) by exact Eb; rewrite ?get_upd_ne by congruence; reflexivity.
Qed.
Lemma not_leaf_inv u v h s : inv h s -> inv h (lf_emit (not_leaf u v) s).
Proof. intros I. apply inv_raw, inv_raw, I. Qed.

(* All of these are generated code that runs as they mean, on their own and
   inside any program (C20_structured). *)
Theorem C60_leaves w L s : linked w L s -> NoDup (map fst (b_init s)) ->
  (forall e i b, writable w e -> ~ priv L s e -> 0 <= i < 32 -> lgood w L s (bit_leaf e i b)) /\
  (forall u v, plain u -> writable w v -> idx u <> idx v -> ~ priv L s u -> ~ priv L s v -> lgood w L s (not_leaf u v)) /\
  (forall neg cs on1 on2, (forall c, In c cs -> cgood L s c) -> good w L s on1 -> good w L s on2 -> in_loops false on1 = true -> in_loops false on2 = true ->
     lgood w L s (ternary_leaf neg cs on1 on2)) /\
  (forall e i l, writable w e -> ~ priv L s e -> 0 <= i < 32 -> forallb closed l = true -> (forall t, In t l -> test_good w L s t) -> lgood w L s (or_leaf e i l)) /\
  (forall v l, writable w v -> ~ priv L s v -> forallb closed l = true -> (forall t, In t l -> and_good w L s t) -> lgood w L s (and_leaf v l)).
Proof.
  intros HL ND. split; [intros; apply bit_leaf_good; auto|]. split; [intros; apply not_leaf_good; auto|]. split; [intros; apply ternary_leaf_good; auto|].
  split; [intros; apply or_leaf_good; auto|intros; apply and_leaf_good; auto].
Qed.
Print Assumptions C60_leaves.
(* and their Forwards are each set once *)
Theorem C60_forwards h s : inv h s ->
  (forall e i b, inv h (lf_emit (bit_leaf e i b) s)) /\ (forall u v, inv h (lf_emit (not_leaf u v) s)) /\
  (forall neg cs on1 on2, leaf_inv (fst (parts on1)) -> leaf_inv (fst (parts on2)) -> inv h (lf_emit (ternary_leaf neg cs on1 on2) s)) /\
  (forall e i l, (forall t, In t l -> test_inv t) -> inv h (lf_emit (or_leaf e i l) s)) /\
  (forall v l, (forall t, In t l -> test_inv t) -> inv h (lf_emit (and_leaf v l) s)).
Proof.
  intros I. split; [intros; apply bit_leaf_inv, I|]. split; [intros; apply not_leaf_inv, I|]. split; [intros; apply ternary_leaf_inv; auto|].
  split; [intros; apply or_leaf_inv; auto|intros; apply and_leaf_inv; auto].
Qed.
Print Assumptions C60_forwards.

(* c ? x : y, and the result is what the chosen side computes *)
Theorem C60_ternary neg cs on1 on2 s w L x :
  EUDTernary neg cs on1 on2 start = Some s -> leaf_inv (fst (parts on1)) -> leaf_inv (fst (parts on2)) -> in_loops false on1 = true -> in_loops false on2 = true ->
  linked w L s -> (forall f, In f (b_pend s) -> L_F L f = x) -> (forall c, In c cs -> cgood L s c) -> good w L s on1 -> good w L s on2 ->
  forall m m', den (if xorb neg (forallb (eval_cond m) cs) then on1 else on2) m Norm m' -> forall m1, sim L s m1 m ->
  exists m1', runs w (pa (L_F L 0%nat), m1) (pa x, m1') /\ sim L s m1' m'.
Proof.
  intros HC V1 V2 H1 H2 HL Hx Gc G1 G2 m m' HD m1 HS.
  assert (EC : comp None (SLeaf (ternary_leaf neg cs on1 on2)) start = Some s) by (cbn [comp ternary_leaf lf_emit]; rewrite HC; reflexivity).
  assert (LI : leaf_inv (fst (parts (SLeaf (ternary_leaf neg cs on1 on2))))) by (intros c [<-|[]] h s0; apply ternary_leaf_inv; assumption).
  assert (ND : NoDup (map fst (b_init s))). { destruct (C20_generates (SLeaf (ternary_leaf neg cs on1 on2))) as (_ & _ & GI). apply (GI LI s EC). }
  apply (C20_structured (SLeaf (ternary_leaf neg cs on1 on2)) s w L x EC LI HL Hx) with (m := m); auto.
  - split; [intros c [<-|[]]; apply ternary_leaf_good; auto|intros c []].
  - split; [reflexivity|]. cbn [ternary_leaf lf_sem]. unfold ternary_means, holds. destruct (xorb neg (forallb (eval_cond m) cs)); exact HD.
Qed.
Print Assumptions C60_ternary.

(* ---------- an example ---------- *)
(* EUDSCAnd()(a == 1)(EUDSCOr()(++b <= 5)(c >= 3)())() with a = 1, b = 9, c = 4:
   b becomes 10, which is not at most 5, but c is at least 3. *)
Definition cC := 42. Definition cE := 43. Definition cV := 44.
Definition lx_or : list test :=
  [mktest (Some (SLeaf (set_leaf cB Add 1))) None [CondM cB AtMost 5] false (Some (CondM cB AtLeast 6));
   mktest None None [CondM cC AtLeast 3] false (Some (CondM cC AtMost 2))].
Definition lx_and : list test :=
  [mktest None None [CondM cA AtLeast 2] true (Some (CondM cA AtMost 1));
   mktest (Some (SLeaf (or_leaf cE 3 lx_or))) None [lb_IsSet cE (2^3)] false None].
Definition lx_code : bs := match EUDSCAnd cV lx_and start with Some x => snd x | None => start end.
Definition lx_lay : lay := mklay exT (fun f => goto 200 (b_sets lx_code) (F f)) (fun d => 60 + Z.of_nat d).
Definition lx_world : world := exworld 0 (map (fun it => it lx_lay) (b_trs lx_code)).
Lemma lx_compiled : exists res, EUDSCAnd cV lx_and start = Some (res, lx_code).
Proof.
  destruct (and_total cV lx_and start eq_refl) as ([res s] & H). exists res. unfold lx_code. rewrite H. reflexivity.
Qed.
Opaque lx_code.
Lemma lx_nx k : (k < 1000)%nat -> idx (nx lx_lay k) = 100001 + 602 * Z.of_nat k.
Proof. intros H. unfold nx, idx, lx_lay. cbn [L_T]. unfold exT. rewrite Z.mod_small; lia. Qed.
Example lx_linked : linked lx_world lx_lay lx_code.
Proof.
  assert (HB : forallb (fun x => (fst x <? 1000)%nat) (b_init lx_code) = true) by (vm_compute; reflexivity).
  rewrite forallb_forall in HB.
  assert (HB' : forall k l, In (k, l) (b_init lx_code) -> (k < 1000)%nat) by (intros k l H; specialize (HB _ H); cbn [fst] in HB; lia).
  assert (HD : b_nd lx_code = 0%nat) by (vm_compute; reflexivity).
  constructor.
  - assert (H : forallb (fun x => L_F lx_lay (fst x) =? lv lx_lay (snd x)) (b_sets lx_code) = true) by (vm_compute; reflexivity).
    rewrite forallb_forall in H. intros f l Hf. specialize (H _ Hf). cbn [fst snd] in H. lia.
  - intros k it H. apply (exworld_placed 0 (map (fun it => it lx_lay) (b_trs lx_code))).
    + lia.
    + vm_compute; reflexivity.
    + apply (map_nth_error (fun it : item => it lx_lay) k (b_trs lx_code) H).
  - intros k l H. specialize (HB' k l H). split; [|reflexivity]. apply plain_small. unfold nx, lx_lay, exT; cbn [L_T]. lia.
  - intros d Hd. lia.
  - intros k k' l l' H H' E. rewrite (lx_nx k), (lx_nx k') in E by (eapply HB'; eassumption). lia.
  - intros d d' H H' E. lia.
  - intros k l d H Hd. lia.
Qed.
Lemma lx_not_priv a : 30 < a < 60 -> ~ priv lx_lay lx_code a.
Proof.
  assert (HB : forallb (fun x => (fst x <? 1000)%nat) (b_init lx_code) = true) by (vm_compute; reflexivity).
  rewrite forallb_forall in HB. intros H [(k & l & Hk & E)|(d & Hd & E)].
  - specialize (HB _ Hk). cbn [fst] in HB. rewrite lx_nx in E by lia. unfold idx in E. rewrite Z.mod_small in E; lia.
  - assert (Q : b_nd lx_code = 0%nat) by (vm_compute; reflexivity). lia.
Qed.
Ltac cells := unfold cA, cB, cC, cE, cV; lia.
Ltac cell_ok := split; [apply plain_small; cells|reflexivity].
Lemma lx_nodup : NoDup (map fst (b_init lx_code)).
Proof.
  assert (H : (fix nd (l : list nat) := match l with [] => true | x :: r => negb (existsb (Nat.eqb x) r) && nd r end) (map fst (b_init lx_code)) = true) by (vm_compute; reflexivity).
  induction (map fst (b_init lx_code)) as [|x r IH]; [constructor|]. apply andb_true_iff in H. destruct H as [H1 H2]. constructor; [|apply IH; exact H2].
  intros Q. assert (E : existsb (Nat.eqb x) r = true) by (apply existsb_exists; exists x; split; [exact Q|apply Nat.eqb_refl]). rewrite E in H1. discriminate.
Qed.
Lemma lx_or_good t : In t lx_or -> test_good lx_world lx_lay lx_code t.
Proof.
  intros [<-|[<-|[]]].
  - split; [split; [intros c [<-|[]]; apply set_leaf_good; [exact lx_linked|cell_ok|apply lx_not_priv; cells]|intros c []]|]. split; [exact I|].
    intros c [<-|[]]. apply condM_good; [apply plain_small; cells|apply lx_not_priv; cells].
  - split; [exact I|]. split; [exact I|]. intros c [<-|[]]. apply condM_good; [apply plain_small; cells|apply lx_not_priv; cells].
Qed.
Lemma lx_emits : emits (SLeaf (or_leaf cE 3 lx_or)).
Proof.
  intros s s' f H Hin Hlt. assert (ES : s' = lf_emit (or_leaf cE 3 lx_or) s) by (cbn [comp] in H; congruence). subst s'.
  assert (P : exists n, b_pend (lf_emit (or_leaf cE 3 lx_or) s) = [(b_nf s + n)%nat; S (b_nf s + n)]).
  { exists 10%nat. cbn. repeat f_equal; lia. }
  destruct P as (n & ->). intros [Q|[Q|[]]]; lia.
Qed.
Lemma lx_and_good t : In t lx_and -> and_good lx_world lx_lay lx_code t.
Proof.
  intros [<-|[<-|[]]].
  - split; [|split; [|exact I]].
    + split; [exact I|]. split; [exact I|]. intros c [<-|[]]. apply condM_good; [apply plain_small; cells|apply lx_not_priv; cells].
    + intros c E. injection E as <-. split; [apply condM_good; [apply plain_small; cells|apply lx_not_priv; cells]|].
      intros m. cbn [t_conds forallb]. rewrite !condM_eval by (apply plain_small; cells). cbn [do_cmp]. change (u32 1) with 1. change (u32 2) with 2. lia.
  - split; [|split; [|exact lx_emits]].
    + split.
      * split; [|intros c []]. intros c [<-|[]]. apply or_leaf_good; [exact lx_linked|exact lx_nodup|cell_ok|apply lx_not_priv; cells|lia|reflexivity|exact lx_or_good].
      * split; [exact I|]. intros c [<-|[]]. apply condMX_good; [apply plain_small; cells|apply lx_not_priv; cells].
    + intros c E. discriminate.
Qed.
Definition lx_m0 : mem := fun i => if i =? cA then 1 else if i =? cB then 9 else if i =? cC then 4 else if i =? cE then 8 else 0.
Definition lx_m1 : mem := upd lx_m0 cV 1.
Definition lx_m2 : mem := set_bit cE 3 true (upd (set_bit cE 3 false lx_m1) cB 10).
Example lx_evals : evals false lx_and (and_start cV lx_and lx_m0) true lx_m2.
Proof.
  apply ev_go with (m1 := lx_m1); [exists lx_m1; split; reflexivity|vm_compute; reflexivity|].
  apply ev_go with (m1 := lx_m2); [|vm_compute; reflexivity|apply ev_nil].
  exists lx_m2. split; [|reflexivity]. split; [reflexivity|]. exists true, (upd (set_bit cE 3 false lx_m1) cB 10). split; [|reflexivity].
  apply ev_go with (m1 := upd (set_bit cE 3 false lx_m1) cB 10); [|vm_compute; reflexivity|].
  - exists (upd (set_bit cE 3 false lx_m1) cB 10). split; [|reflexivity]. split; [reflexivity|]. intros b.
    unfold get. change (do_mod Add (get (set_bit cE 3 false lx_m1) cB) (u32 1)) with 10. reflexivity.
  - apply ev_stop; [exists (upd (set_bit cE 3 false lx_m1) cB 10); split; reflexivity|vm_compute; reflexivity].
Qed.
Definition lx_mem (m : mem) : mem := fold_right (fun x m => upd m (nx lx_lay (fst x)) (pa (lv lx_lay (snd x)))) m (b_init lx_code).
Example lx_sim : sim lx_lay lx_code (lx_mem lx_m0) lx_m0.
Proof.
  split.
  - intros a Ha. unfold lx_mem.
    assert (H : forall l, (forall x, In x l -> In x (b_init lx_code)) -> get (fold_right (fun x m => upd m (nx lx_lay (fst x)) (pa (lv lx_lay (snd x)))) lx_m0 l) a = get lx_m0 a).
    { induction l as [|[k z] l IH]; intros Hl; [reflexivity|]. cbn [fold_right fst snd]. rewrite get_upd_ne; [apply IH; intros; apply Hl; right; auto|].
      intros E. apply Ha. left. exists k, z. split; [apply Hl; left; reflexivity|exact (eq_sym E)]. }
    apply H. auto.
  - assert (H : forallb (fun x => get (lx_mem lx_m0) (nx lx_lay (fst x)) =? pa (lv lx_lay (snd x))) (b_init lx_code) = true) by (vm_compute; reflexivity).
    rewrite forallb_forall in H. intros k l Hk. specialize (H _ Hk). cbn [fst snd] in H. lia.
Qed.
Lemma lx_inv t : In t lx_and -> test_inv t.
Proof.
  assert (IO : forall t, In t lx_or -> test_inv t).
  { clear. intros t [<-|[<-|[]]]; split; intros c Hc h s; cbn in Hc; try contradiction. destruct Hc as [<-|[]]. apply set_leaf_inv. }
  intros [<-|[<-|[]]]; split; intros c Hc h s; cbn [t_pre t_patch opt_parts parts fst] in Hc; try contradiction. destruct Hc as [<-|[]]. apply or_leaf_inv. exact IO.
Qed.
Example lx_runs : exists res m1, EUDSCAnd cV lx_and start = Some (res, lx_code) /\
  runs lx_world (pa (exT 8), lx_mem lx_m0) (pa 200000, m1) /\ get m1 cB = 10 /\ holds false res m1 = true.
Proof.
  destruct lx_compiled as (res & HC).
  destruct (C60_sc_and cV lx_and res lx_code lx_world lx_lay 200000) with (m := lx_m0) (b := true) (m2 := lx_m2) (m1 := lx_mem lx_m0) as (m1 & R1 & [A _] & B).
  - exact HC.
  - exact lx_inv.
  - reflexivity.
  - exact lx_linked.
  - assert (H : forallb (fun f => L_F lx_lay f =? 200000) (b_pend lx_code) = true) by (vm_compute; reflexivity).
    rewrite forallb_forall in H. intros f Hf. specialize (H _ Hf). lia.
  - cell_ok.
  - apply lx_not_priv; cells.
  - exact lx_and_good.
  - exact lx_evals.
  - right. reflexivity.
  - exact lx_sim.
  - exists res, m1. split; [exact HC|]. split; [|split; [|exact B]].
    + assert (E : L_F lx_lay 0%nat = exT 8) by (vm_compute; reflexivity). rewrite <- E. exact R1.
    + rewrite A by (apply lx_not_priv; cells). vm_compute. reflexivity.
Qed.
