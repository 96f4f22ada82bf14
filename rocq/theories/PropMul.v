(* Final theorems: multiplication, division and shifts (C11, C12, C13, C15). *)
From Coq Require Import ZArith Lia Bool List Permutation ZifyBool ZifyNat.
From Verif Require Import Lib Word Machine MachineProofs VarModel VarSpec VarProofs SeqProofs NonSeqProofs
  OpsModel OpsSpec OpsBase OpsProofs OpsArith OpsBits OpsXor OpsShift OpsFinal FuncModel FuncSpec FuncProofs FuncBody MulModel MulArith MulConst MulVar DivVar
  ShiftVar CalcModel CalcProofs.
Import ListNotations.
Open Scope Z_scope.

Section W.
Variable w : world.
Hypothesis Hw : world_ok w.
Notation vars := (W_vars w).
Variable same same_u : dst -> dst -> bool.
Hypothesis Hsame : forall a b, same a b = true -> u32 (dst_epd a) = u32 (dst_epd b).
Variable perm : list pair -> list pair.
Hypothesis Hperm : forall l, Permutation (perm l) l.
Variable L : lib.

(* How a use is carried out: by a call of a function of the library, by the
   shift function for a small constant, or by code in place. *)
Inductive way := WCall (K : kind) (args : list src) (rds : list Z) | WShn (n x r : Z) | WInline (vs : list Z) (cells : list Z).
(* the function that is called is in place and may be called with these
   arguments *)
Definition shn_placed (n : Z) : Prop :=
  let f := L_shn L (Z.to_nat n) in
  let body := shn_body (fn_T f) (Z.to_nat n) (L_adder L) in
  fn_args f = [DExpr (sh_ret (fn_T f) (Z.to_nat n)); DVar (L_adder L)] /\ fn_rets f = [] /\
  fn_len f = length body /\ fn_wf w f /\ placed w (fn_T f) 0 body.
Definition way_ok (y : way) (m : mem) : Prop :=
  match y with
  | WCall K args rds => calc_fn w same same_u perm K (L_fn L K) /\ call_ok w (fd_f (L_fn L K)) args rds m /\ spares (L_fn L K, args, rds) (L_fn L K)
  | WShn n x r => shn_placed n /\ call_ok w (L_shn L (Z.to_nat n)) [SConst (val r); SVar x] [] m /\ In r vars /\ r <> L_adder L
  | WInline vs cells => forall v, In v vs -> In v vars /\ ordinary m v
  end.
(* ready for a call, true before and after every use *)
Definition way_ready (y : way) (m : mem) : Prop :=
  match y with
  | WCall K _ _ => fd_ready (L_fn L K) m
  | WShn _ _ _ => adder_ready (L_adder L) m
  | WInline _ _ => True
  end.
(* the cells that may change apart from the results *)
Definition way_S (y : way) : Z -> Prop :=
  match y with
  | WCall K args _ => call_tmp (fd_f (L_fn L K)) args (fd_S (L_fn L K))
  | WShn n x r => call_tmp (L_shn L (Z.to_nat n)) [SConst (val r); SVar x] (tmp [] [val (L_adder L); vc (L_adder L) FNext])
  | WInline vs cells => tmp vs cells
  end.
(* the use has the effect l, and may be repeated *)
Definition use (T : nat -> Z) (k : nat) (code : list trig) (y : way) (m : mem) (l : list (Z * Z)) : Prop :=
  exists m', runs w (lbl T k, m) (lbl T (k + length code), m') /\ changes (way_S y) m m' l /\ keeps w m m' /\ way_ready y m'.

Lemma call_use T k K args rds m :
  length args = arity K ->
  way_ok (WCall K args rds) m -> way_ready (WCall K args rds) m -> placed w T k (func_call same same_u perm T k (fd_f (L_fn L K)) args rds) ->
  use T k (func_call same same_u perm T k (fd_f (L_fn L K)) args rds) (WCall K args rds) m (combine rds (meaning K (map (sval m) args))).
Proof.
  intros Hl (H1 & H2 & H3) HR Hp. destruct (calc_fn_ok w Hw same same_u Hsame perm Hperm K _ H1) as [Hok HF].
  destruct (use_call w Hw same same_u Hsame perm Hperm T k (L_fn L K) args rds m Hok HR H2 H3 Hp) as (m' & A & B & C & E).
  rewrite HF in B.
  - exists m'. auto.
  - rewrite map_length. exact Hl.
  - intros x Hx. apply in_map_iff in Hx. destruct Hx as (s & <- & _). destruct s; [apply u32_range|apply get_range].
Qed.

Lemma shn_use T k n x r m :
  way_ok (WShn n x r) m -> way_ready (WShn n x r) m -> 0 <= n ->
  placed w T k (func_call same same_u perm T k (L_shn L (Z.to_nat n)) [SConst (val r); SVar x] []) ->
  use T k (func_call same same_u perm T k (L_shn L (Z.to_nat n)) [SConst (val r); SVar x] []) (WShn n x r) m
    [(val r, u32 (get m (val x) * 2 ^ n))].
Proof.
  intros ((A1 & A2 & A3 & A4 & A5) & Hc & Hr & Hra) HR Hn Hp. cbn [way_ready] in HR.
  set (f := L_shn L (Z.to_nat n)) in *. set (t := L_adder L) in *.
  assert (Ht : In t vars) by (apply (fw_args _ _ A4 (DVar t)); rewrite A1; cbn; auto).
  assert (Hd : valcell w (val r)) by (apply (valcell_val w Hw); auto).
  assert (Hx : In x vars /\ x <> t).
  { destruct (co_vars _ _ _ _ _ Hc x) as (B1 & _ & _ & B2); [cbn; auto|]. split; [exact B1|]. intros ->. apply (B2 (DVar t)); [rewrite A1; cbn; auto|reflexivity]. }
  assert (Hf : f = mkfunc (fn_T f) (fn_len f) [DExpr (sh_ret (fn_T f) (Z.to_nat n)); DVar t] []).
  { destruct f as [fT fl fa fr0]. cbn [fn_args fn_rets fn_T fn_len] in *. subst. reflexivity. }
  assert (HB : body_ok w f (fun m => adder_ready t m /\ get m (sh_ret (fn_T f) (Z.to_nat n)) = u32 (val r))
    (fun m1 m2 => adder_ready t m2 /\ get m2 (val r) = u32 (get m1 (val t) * 2 ^ Z.of_nat (Z.to_nat n)) /\ fr [val r; val t; vc t FNext] m1 m2)).
  { rewrite Hf at 1. apply (shn_body_ok w Hw (fn_T f) (Z.to_nat n) t (fn_len f) (val r)).
    - exact A3.
    - rewrite <- Hf. exact A4.
    - exact Hd.
    - sep.
    - rewrite <- Hf. apply (ret_nptr w); auto.
    - exact A5. }
  assert (HRR : rets_ready f m) by (intros y Hy; rewrite A2 in Hy; destruct Hy).
  destruct (call_run w Hw same same_u Hsame perm Hperm T k f [SConst (val r); SVar x] [] m _ _ A4 Hc Hp HRR HB) as (m1 & m2 & m3 & R & E1 & (P1 & P2 & P3) & (_ & Q3) & _ & K).
  { intros m1 (E1 & E2 & E3). split.
    - assert (G : forall fl, fl <> FVal -> get m1 (vc t fl) = get m (vc t fl)).
      { intros fl Hfl. apply E2. intros [(v & g & [<-|[]] & Hg & Q)|[Q|[(y & Hy & _)|(d & Hd' & Q)]]].
        - revert Q. apply (vsep w Hw); [exact Ht|exact (proj1 Hx)|left; intros Q; apply (proj2 Hx); symmetry; exact Q].
        - eapply (proj2 (fw_nptr _ _ A4)); [exact Ht|symmetry; exact Q].
        - rewrite A2 in Hy. destruct Hy.
        - rewrite A1 in Hd'. destruct Hd' as [<-|[<-|[]]].
          + cbn [dst_epd] in Q. assert (Hp' : patchable w (sh_ret (fn_T f) (Z.to_nat n))) by (apply (fw_args _ _ A4 (DExpr (sh_ret (fn_T f) (Z.to_nat n)))); rewrite A1; cbn; auto).
            eapply (proj2 Hp'); [exact Ht|symmetry; exact Q].
          + cbn [dst_epd] in Q. revert Q. apply (vsep w Hw); auto. }
      destruct HR as (B1 & B2 & B3). split; [|split]; rewrite G by discriminate; auto.
    - apply (E1 (DExpr (sh_ret (fn_T f) (Z.to_nat n))) (SConst (val r))). rewrite A1. left. reflexivity. }
  assert (G3 : forall b, get m3 b = get m2 b).
  { intros b. apply Q3; [|intros d []]. intros (y & Hy & _). rewrite A2 in Hy. destruct Hy. }
  exists m3. split; [exact R|]. split; [|split; [exact K|]].
  - split.
    + intros a y [Ey|[]]. injection Ey as <- <-. rewrite G3, P2. rewrite Z2Nat.id by exact Hn.
      destruct E1 as (E1 & _). assert (Ev : get m1 (val t) = get m (val x)) by (apply (E1 (DVar t) (SVar x)); rewrite A1; right; left; reflexivity). rewrite Ev. reflexivity.
    + intros b Hb Hl. rewrite G3, P3.
      * destruct E1 as (_ & E2 & _). apply E2. intros Q. apply Hb. left. exact Q.
      * intros c [<-|[<-|[<-|[]]]] Q; [apply (Hl (val r) (u32 (get m (val x) * 2 ^ n))); [left; reflexivity|exact Q]| |]; apply Hb; right; right; right; eexists; (split; [|symmetry; exact Q]); fold t; cbn; auto.
  - cbn [way_ready]. destruct P1 as (B1 & B2 & B3). split; [|split]; rewrite G3; auto.
Qed.

(* ---------- shifts by constants ---------- *)
Definition shl_way (x n r : Z) : way := if (1 <=? n) && (n <=? 10) then WShn n x r else WInline [x] [].
Lemma copy_does T k x r m : In r vars -> In x vars -> ordinary m x ->
  placed w T k (if x =? r then [] else v_assign same same_u T k r (SVar x)) ->
  does w T k (if x =? r then [] else v_assign same same_u T k r (SVar x)) (tmp [x] []) m [(val r, get m (val x))].
Proof.
  intros Hr Hx Ho Hp. destruct (Z.eqb_spec x r) as [->|Hne].
  - exists m. cbn [length]. rewrite Nat.add_0_r. split; [apply steps_refl|]. split; [|apply keeps_refl]. split; [|auto].
    intros a y [E|[]]. injection E as <- <-. reflexivity.
  - apply (v_assign_does w Hw same same_u Hsame T k r (SVar x) m); auto. split; auto.
Qed.
Lemma does_then T k (c1 : list trig) (c2 : nat -> list trig) S m a x y :
  does w T k c1 S m [(a, x)] ->
  (forall m1, get m1 a = x -> does w T (k + length c1) (c2 (k + length c1)%nat) (tmp [] []) m1 [(a, y)]) ->
  does w T k (andthen k c1 c2) S m [(a, y)].
Proof.
  intros (m1 & A1 & B1 & K1) H. destruct (H m1) as (m2 & A2 & B2 & K2); [apply (proj1 B1); left; reflexivity|].
  exists m2. unfold andthen. cbv zeta. rewrite app_length, Nat.add_assoc. split; [eapply runs_trans; eauto|]. split; [|eapply keeps_trans; eauto].
  split; [apply B2|]. intros b Hb Hl. rewrite (proj2 B2), (proj2 B1); auto.
  - intros c z [E|[]]. injection E as <- <-. apply (Hl a y). left. reflexivity.
  - intros [(v & g & [] & _)|(c & [] & _)].
Qed.

Lemma shl_const_use T k x n r m : 0 <= n -> In r vars -> In x vars -> ordinary m x ->
  way_ok (shl_way x n r) m -> way_ready (shl_way x n r) m -> placed w T k (shl_const same same_u perm T L k x n r) ->
  use T k (shl_const same same_u perm T L k x n r) (shl_way x n r) m [(val r, u32 (get m (val x) * 2 ^ n))].
Proof.
  intros Hn Hr Hx Ho Hok HR Hp. unfold shl_const, shl_way in *.
  destruct (Z.eqb_spec n 0) as [->|N0].
  - change ((1 <=? 0) && (0 <=? 10)) with false in *. cbn iota in *.
    destruct (copy_does T k x r m Hr Hx Ho Hp) as (m' & A & B & K). rewrite Z.pow_0_r, Z.mul_1_r, u32_get. exists m'. cbn [way_S way_ready]. auto.
  - destruct (Z.leb_spec n 10) as [N1|N1].
    + replace (1 <=? n) with true in * by lia. cbn [andb] in *. apply shn_use; auto.
    + rewrite andb_false_r in *. assert (D : does w T k (andthen k (if x =? r then [] else v_assign same same_u T k r (SVar x)) (fun j => lv_ilshift T j (val r) n)) (tmp [x] []) m
        [(val r, u32 (get m (val x) * 2 ^ n))]).
      { unfold andthen in Hp. cbv zeta in Hp. apply placed_app in Hp. destruct Hp as [P1 P2].
        apply does_then with (x := get m (val x)); [apply copy_does; auto|]. intros m1 E1. rewrite <- E1, <- Z.shiftl_mul_pow2 by exact Hn.
        apply lv_ilshift_does; auto. apply (valcell_val w Hw); auto. }
      destruct D as (m' & A & B & K). exists m'. cbn [way_S way_ready]. auto.
Qed.
Lemma shr_const_use T k x n r m : 0 <= n -> In r vars -> In x vars -> ordinary m x ->
  placed w T k (shr_const same same_u T k x n r) ->
  does w T k (shr_const same same_u T k x n r) (tmp [x] []) m [(val r, get m (val x) / 2 ^ n)].
Proof.
  intros Hn Hr Hx Ho Hp. unfold shr_const in *.
  destruct (Z.eqb_spec n 0) as [->|N0].
  - rewrite Z.pow_0_r, Z.div_1_r. apply copy_does; auto.
  - unfold andthen in Hp. cbv zeta in Hp. apply placed_app in Hp. destruct Hp as [P1 P2].
    apply does_then with (x := get m (val x)); [apply copy_does; auto|]. intros m1 E1. rewrite <- E1, <- Z.shiftr_div_pow2 by exact Hn.
    apply lv_irshift_does; auto. apply (valcell_val w Hw); auto.
Qed.

(* ---------- C15 ---------- *)
Definition shl_use_way (a b : src) (r : Z) : way :=
  match a, b with SVar x, SConst n => shl_way x n r | _, _ => WCall KShl [a; b] [val r] end.
(* a << b: for every amount, constant or variable, the result is the product
   with 2^b modulo 2^32 (zero from 32 on) *)
Theorem C15_bitlshift : forall T k a b r m code,
  f_bitlshift same same_u perm T L k a b r = Some code ->
  In r vars -> ord_src w m a -> ord_src w m b ->
  way_ok (shl_use_way a b r) m -> way_ready (shl_use_way a b r) m -> placed w T k code ->
  let n := match b with SConst n => n | SVar v => get m (val v) end in
  use T k code (shl_use_way a b r) m [(val r, (sval m a * 2 ^ n) mod 2^32)] /\ (32 <= n -> (sval m a * 2 ^ n) mod 2^32 = 0).
Proof.
  intros T k a b r m code Hc Hr Ha Hb Hok HR Hp n.
  split.
  2:{ intros H32. replace n with (n - 32 + 32) by ring. rewrite Z.pow_add_r by lia. rewrite Z.mul_assoc. apply Z.mod_mul. discriminate. }
  assert (Hsh : forall x v, use T k (func_call same same_u perm T k (fd_f (L_fn L KShl)) [x; SVar v] [val r]) (WCall KShl [x; SVar v] [val r]) m
     (combine [val r] (meaning KShl (map (sval m) [x; SVar v]))) ->
     use T k (func_call same same_u perm T k (fd_f (L_fn L KShl)) [x; SVar v] [val r]) (WCall KShl [x; SVar v] [val r]) m
       [(val r, (sval m x * 2 ^ get m (val v)) mod 2^32)]).
  { intros x v H. cbn [map meaning nth combine sval] in H. replace ((sval m x * 2 ^ get m (val v)) mod 2 ^ 32) with (if get m (val v) <? 32 then (sval m x * 2 ^ get m (val v)) mod 2^32 else 0); [exact H|].
    apply (shl_pow (sval m x)). apply get_range. }
  destruct a as [ca|x], b as [cb|y]; cbn [f_bitlshift shl_use_way] in *; try discriminate.
  - injection Hc as <-. apply Hsh. apply call_use; auto.
  - destruct (Z.ltb_spec cb 0) as [N|N]; [discriminate|]. injection Hc as <-. unfold n. cbn [sval]. apply (shl_const_use T k x cb r m N Hr (proj1 Ha) (proj2 Ha) Hok HR Hp).
  - injection Hc as <-. apply Hsh. apply call_use; auto.
Qed.

Definition shr_use_way (a b : src) (r : Z) : way :=
  match a, b with SVar x, SConst _ => WInline [x] [] | _, _ => WCall KShr [a; b] [val r] end.
Theorem C15_bitrshift : forall T k a b r m code,
  f_bitrshift same same_u perm T L k a b r = Some code ->
  In r vars -> ord_src w m a -> ord_src w m b ->
  way_ok (shr_use_way a b r) m -> way_ready (shr_use_way a b r) m -> placed w T k code ->
  let n := match b with SConst n => n | SVar v => get m (val v) end in
  use T k code (shr_use_way a b r) m [(val r, sval m a / 2 ^ n)] /\ (32 <= n -> sval m a / 2 ^ n = 0).
Proof.
  intros T k a b r m code Hc Hr Ha Hb Hok HR Hp n.
  assert (Hbig : forall x n, 0 <= x < 2^32 -> 32 <= n -> x / 2 ^ n = 0).
  { intros x j Hx Hj. apply Z.div_small. split; [apply Hx|]. eapply Z.lt_le_trans; [apply Hx|]. apply Z.pow_le_mono_r; lia. }
  assert (Hra : 0 <= sval m a < 2^32) by (destruct a; [apply u32_range|apply get_range]).
  split; [|apply Hbig; exact Hra].
  assert (Hsh : forall x v, 0 <= sval m x < 2^32 -> use T k (func_call same same_u perm T k (fd_f (L_fn L KShr)) [x; SVar v] [val r]) (WCall KShr [x; SVar v] [val r]) m
     (combine [val r] (meaning KShr (map (sval m) [x; SVar v]))) ->
     use T k (func_call same same_u perm T k (fd_f (L_fn L KShr)) [x; SVar v] [val r]) (WCall KShr [x; SVar v] [val r]) m
       [(val r, sval m x / 2 ^ get m (val v))]).
  { intros x v Hx H. cbn [map meaning nth combine sval] in H. replace (sval m x / 2 ^ get m (val v)) with (if get m (val v) <? 32 then sval m x / 2 ^ get m (val v) else 0); [exact H|].
    destruct (Z.ltb_spec (get m (val v)) 32); [reflexivity|]. symmetry. apply Hbig; auto. }
  destruct a as [ca|x], b as [cb|y]; cbn [f_bitrshift shr_use_way] in *; try discriminate.
  - injection Hc as <-. apply Hsh; auto. apply call_use; auto.
  - destruct (Z.ltb_spec cb 0) as [N|N]; [discriminate|]. injection Hc as <-. unfold n. cbn [sval].
    destruct (shr_const_use T k x cb r m N Hr (proj1 Ha) (proj2 Ha) Hp) as (m' & A & B & K). exists m'. cbn [way_S way_ready]. auto.
  - injection Hc as <-. apply Hsh; auto. apply call_use; auto.
Qed.

(* ---------- C11 ---------- *)
Definition const_way (n x r : Z) : way :=
  match pow_case (u32 n) with Some p => shl_way x p r | None => WCall (KCMul (u32 n)) [SVar x] [val r] end.
Definition mul_way (a b : src) (r : Z) : way :=
  match a, b with
  | SVar _, SVar _ => WCall KMul [a; b] [val r]
  | SVar x, SConst n => const_way n x r
  | SConst n, SVar x => const_way n x r
  | _, _ => WInline [] []
  end.
Lemma const_mul_use T k n x r m : In r vars -> In x vars -> ordinary m x ->
  way_ok (const_way n x r) m -> way_ready (const_way n x r) m -> placed w T k (const_mul same same_u perm T L k n x r) ->
  use T k (const_mul same same_u perm T L k n x r) (const_way n x r) m [(val r, (get m (val x) * n) mod 2^32)].
Proof.
  intros Hr Hx Ho Hok HR Hp. unfold const_mul, const_way in *.
  destruct (pow_case (u32 n)) as [p|] eqn:E.
  - apply find_some in E. destruct E as [Hin E]. apply Z.eqb_eq in E.
    replace ((get m (val x) * n) mod 2^32) with (u32 (get m (val x) * 2 ^ p)) by (rewrite <- E; unfold u32; rewrite Z.mul_mod_idemp_r by discriminate; reflexivity).
    apply shl_const_use; auto. cbn [In] in Hin. lia.
  - replace ((get m (val x) * n) mod 2^32) with ((get m (val x) * u32 n) mod 2^32) by (unfold u32; rewrite Z.mul_mod_idemp_r by discriminate; reflexivity).
    apply (call_use T k (KCMul (u32 n)) [SVar x] [val r]); auto.
Qed.
Theorem C11_f_mul : forall T k a b r m,
  In r vars -> ord_src w m a -> ord_src w m b ->
  way_ok (mul_way a b r) m -> way_ready (mul_way a b r) m -> placed w T k (f_mul same same_u perm T L k a b r) ->
  use T k (f_mul same same_u perm T L k a b r) (mul_way a b r) m [(val r, (sval m a * sval m b) mod 2^32)].
Proof.
  intros T k a b r m Hr Ha Hb Hok HR Hp. destruct a as [ca|x], b as [cb|y]; cbn [f_mul mul_way sval ord_src] in *.
  - destruct (v_assign_does w Hw same same_u Hsame T k r (SConst (ca * cb)) m Hr I Hp) as (m' & A & B & K). exists m'. cbn [way_S way_ready].
    cbn [sval] in B. unfold u32 in *. rewrite <- Z.mul_mod by discriminate. auto.
  - rewrite Z.mul_comm. unfold u32. rewrite Z.mul_mod_idemp_r by discriminate. apply const_mul_use; tauto.
  - unfold u32. rewrite Z.mul_mod_idemp_r by discriminate. apply const_mul_use; tauto.
  - apply (call_use T k KMul [SVar x; SVar y] [val r]); auto.
Qed.

(* ---------- C12 ---------- *)
Definition div_way (a b : src) (rds : list Z) : way :=
  match a, b with
  | _, SVar _ => WCall KDiv [a; b] rds
  | SVar x, SConst n => WCall (KCDiv n) [SVar x] rds
  | _, _ => WInline [] []
  end.
(* a constant is the number itself; a variable is its value *)
Definition num (m : mem) (s : src) : Z := match s with SConst n => n | SVar v => get m (val v) end.
Definition quot_spec (a b : Z) : Z := if b =? 0 then 2^32 - 1 else a / b.
Definition rem_spec (a b : Z) : Z := if b =? 0 then a else a mod b.
Lemma seq_consts T k l m :
  (forall d md s, In (d, md, s) l -> md = SetTo /\ truthy d = true /\ valcell w (dst_epd d) /\ exists c, s = SConst c) ->
  ForallOrdPairs indep l -> placed w T k (SeqCompute same same_u T k (map with_mod l)) ->
  does w T k (SeqCompute same same_u T k (map with_mod l)) (tmp [] []) m (map (fun p => (rpair_dst p, sval m (snd p))) l).
Proof.
  intros H Hi Hp. pose proof (sets_run w Hw same same_u Hsame perm Hperm T k [] l m) as Q.
  replace (flat_map (fun p : dst * modifier * src => svar (snd p)) l) with (@nil Z) in Q.
  - apply Q; auto. intros d md s Hin. destruct (H d md s Hin) as (A & B & C & c & ->). repeat split; auto; apply C.
  - clear -H. induction l as [|[[d md] s] l IH]; [reflexivity|]. cbn [flat_map snd]. rewrite <- IH by (intros; apply (H d0 md0 s0); right; auto).
    destruct (H d md s) as (_ & _ & _ & c & ->); [left; reflexivity|]. reflexivity.
Qed.

Theorem C12_f_div : forall T k a b q r m code,
  f_div same same_u perm T L k a b q r = Some code ->
  In q vars -> In r vars -> q <> r -> ord_src w m a -> ord_src w m b ->
  (forall n, In (SConst n) [a; b] -> n < 2^32) ->
  way_ok (div_way a b [val q; val r]) m -> way_ready (div_way a b [val q; val r]) m -> placed w T k code ->
  use T k code (div_way a b [val q; val r]) m [(val q, quot_spec (num m a) (num m b)); (val r, rem_spec (num m a) (num m b))].
Proof.
  intros T k a b q r m code Hc Hq Hr Hqr Ha Hb Hn Hok HR Hp. unfold f_div in Hc.
  destruct (neg_arg a || neg_arg b) eqn:N; [discriminate|]. apply orb_false_iff in N. destruct N as [N1 N2].
  assert (Hs : forall s, In s [a; b] -> neg_arg s = false -> sval m s = num m s).
  { intros [c|v] Hin Hneg; [|reflexivity]. cbn [sval num neg_arg] in *. apply u32_small. specialize (Hn c Hin). lia. }
  assert (Sa : sval m a = num m a) by (apply Hs; cbn; auto). assert (Sb : sval m b = num m b) by (apply Hs; cbn; auto).
  assert (Hd : forall x y, combine [val q; val r] (if y =? 0 then [2 ^ 32 - 1; x] else [x / y; x mod y]) = [(val q, quot_spec x y); (val r, rem_spec x y)]).
  { intros x y. unfold quot_spec, rem_spec. destruct (y =? 0); reflexivity. }
  destruct b as [cb|y].
  - destruct a as [ca|x].
    + cbn [num] in *. cbn [neg_arg] in *.
      assert (HD : does w T k (SeqCompute same same_u T k [(DVar q, Some SetTo, SConst (quot_spec ca cb)); (DVar r, Some SetTo, SConst (rem_spec ca cb))]) (tmp [] []) m
         [(val q, quot_spec ca cb); (val r, rem_spec ca cb)]).
      { assert (R1 : 0 <= quot_spec ca cb < 2^32 /\ 0 <= rem_spec ca cb < 2^32).
        { pose proof (Hn ca (or_introl eq_refl)). pose proof (Hn cb (or_intror (or_introl eq_refl))). unfold quot_spec, rem_spec.
          destruct (Z.eqb_spec cb 0); [lia|]. pose proof (Z.mod_pos_bound ca cb ltac:(lia)). pose proof (Z.div_pos ca cb ltac:(lia) ltac:(lia)).
          pose proof (Z.div_le_upper_bound ca cb ca ltac:(lia) ltac:(nia)). lia. }
        pose proof (seq_consts T k [(DVar q, SetTo, SConst (quot_spec ca cb)); (DVar r, SetTo, SConst (rem_spec ca cb))] m) as Q.
        cbn [map with_mod rpair_dst snd fst sval dst_epd] in Q. rewrite !u32_small in Q by apply R1. apply Q.
        - intros d md s [E|[E|[]]]; injection E as <- <- <-; (split; [reflexivity|split; [reflexivity|split; [apply (valcell_val w Hw); auto|eexists; reflexivity]]]).
        - repeat constructor; cbn [In rpair_reads]; try (intros z []). apply (vsep w Hw); auto.
        - unfold quot_spec, rem_spec in *. destruct (cb =? 0); injection Hc as <-; exact Hp. }
      assert (Ec : code = SeqCompute same same_u T k [(DVar q, Some SetTo, SConst (quot_spec ca cb)); (DVar r, Some SetTo, SConst (rem_spec ca cb))]).
      { unfold quot_spec, rem_spec. destruct (cb =? 0); injection Hc as <-; reflexivity. }
      rewrite Ec. destruct HD as (m' & A & B & K). exists m'. cbn [way_S way_ready]. auto.
    + injection Hc as <-. cbn [div_way num] in *. rewrite <- Hd. apply (call_use T k (KCDiv cb) [SVar x] [val q; val r]); auto.
  - assert (Ec : code = func_call same same_u perm T k (fd_f (L_fn L KDiv)) [a; SVar y] [val q; val r]) by (destruct a; injection Hc as <-; reflexivity).
    rewrite Ec in *. assert (Ew : div_way a (SVar y) [val q; val r] = WCall KDiv [a; SVar y] [val q; val r]) by (destruct a; reflexivity).
    rewrite Ew in *. rewrite <- Hd. rewrite <- Sa, <- Sb. apply (call_use T k KDiv [a; SVar y] [val q; val r]); auto.
Qed.

Definition quot_way (a b : src) (q : Z) : way :=
  match a, b with
  | _, SVar _ => WCall KDiv [a; b] [val q; val (L_spare L)]
  | SVar x, SConst n => WCall (KCQuot n) [SVar x] [val q]
  | _, _ => WInline [] []
  end.
(* a // b and a % b alone; the spare variable may be overwritten *)
Definition use1 (T : nat -> Z) (k : nat) (code : list trig) (y : way) (m : mem) (l : list (Z * Z)) : Prop :=
  exists m', runs w (lbl T k, m) (lbl T (k + length code), m') /\
    changes (fun c => way_S y c \/ idx c = idx (val (L_spare L))) m m' l /\ keeps w m m' /\ way_ready y m'.
Theorem C12_quot : forall T k a b q m code,
  f_quot same same_u perm T L k a b q = Some code ->
  In q vars -> In (L_spare L) vars -> q <> L_spare L -> ord_src w m a -> ord_src w m b ->
  (forall n, In (SConst n) [a; b] -> n < 2^32) ->
  way_ok (quot_way a b q) m -> way_ready (quot_way a b q) m -> placed w T k code ->
  use1 T k code (quot_way a b q) m [(val q, quot_spec (num m a) (num m b))].
Proof.
  intros T k a b q m code Hc Hq Hsp Hqs Ha Hb Hn Hok HR Hp. unfold f_quot in Hc.
  destruct (neg_arg a || neg_arg b) eqn:N; [discriminate|]. apply orb_false_iff in N. destruct N as [N1 N2].
  assert (Hs : forall s, In s [a; b] -> neg_arg s = false -> sval m s = num m s).
  { intros [c|v] Hin Hneg; [|reflexivity]. cbn [sval num neg_arg] in *. apply u32_small. specialize (Hn c Hin). lia. }
  assert (Sa : sval m a = num m a) by (apply Hs; cbn; auto). assert (Sb : sval m b = num m b) by (apply Hs; cbn; auto).
  destruct b as [cb|y].
  - destruct a as [ca|x].
    + destruct (cb =? 0) eqn:E0; [discriminate|]. injection Hc as <-. cbn [neg_arg num] in *. unfold quot_spec. rewrite E0.
      assert (R1 : 0 <= ca / cb < 2^32).
      { pose proof (Hn ca (or_introl eq_refl)). pose proof (Z.div_pos ca cb ltac:(lia) ltac:(lia)).
        pose proof (Z.div_le_upper_bound ca cb ca ltac:(lia) ltac:(nia)). lia. }
      pose proof (seq_consts T k [(DVar q, SetTo, SConst (ca / cb))] m) as Q.
      cbn [map with_mod rpair_dst snd fst sval dst_epd] in Q. rewrite !u32_small in Q by apply R1.
      destruct Q as (m' & A & B & K).
      * intros d md s [E|[]]; injection E as <- <- <-; (split; [reflexivity|split; [reflexivity|split; [apply (valcell_val w Hw); auto|eexists; reflexivity]]]).
      * repeat constructor.
      * exact Hp.
      * exists m'. cbn [quot_way way_S way_ready]. split; [exact A|]. split; [|auto]. eapply changes_weaken; [|exact B]. auto.
    + injection Hc as <-. cbn [quot_way num] in *.
      destruct (call_use T k (KCQuot cb) [SVar x] [val q] m eq_refl Hok HR Hp) as (m' & A & B & K & R). exists m'. split; [exact A|]. split; [|auto].
      eapply changes_weaken with (S := way_S (WCall (KCQuot cb) [SVar x] [val q])); [auto|]. cbn [map meaning nth sval] in B. unfold quot_spec. destruct (cb =? 0); exact B.
  - assert (Ec : code = func_call same same_u perm T k (fd_f (L_fn L KDiv)) [a; SVar y] [val q; val (L_spare L)]) by (destruct a; injection Hc as <-; reflexivity).
    rewrite Ec in *. assert (Ew : quot_way a (SVar y) q = WCall KDiv [a; SVar y] [val q; val (L_spare L)]) by (destruct a; reflexivity).
    rewrite Ew in *. destruct (call_use T k KDiv [a; SVar y] [val q; val (L_spare L)] m eq_refl Hok HR Hp) as (m' & A & B & K & R). exists m'. split; [exact A|]. split; [|auto].
    cbn [map meaning nth] in B. rewrite Sa, Sb in B. unfold quot_spec. split.
    + intros c z [E|[]]. injection E as <- <-. cbn [num] in B |- *. apply (proj1 B). destruct (get m (val y) =? 0); left; reflexivity.
    + intros c Hc' Hl. apply (proj2 B).
      * intros Q. apply Hc'. left. exact Q.
      * intros d z Hin. apply in_combine_l in Hin. destruct Hin as [<-|[<-|[]]].
        -- eapply Hl. left. reflexivity.
        -- intros Q. apply Hc'. right. symmetry. exact Q.
Qed.
Definition rem_way (a b : src) (r : Z) : way :=
  match a, b with
  | _, SVar _ => WCall KDiv [a; b] [val (L_spare L); val r]
  | SVar x, SConst n => WCall (KCRem n) [SVar x] [val r]
  | _, _ => WInline [] []
  end.
Theorem C12_rem : forall T k a b r m code,
  f_rem same same_u perm T L k a b r = Some code ->
  In r vars -> In (L_spare L) vars -> r <> L_spare L -> ord_src w m a -> ord_src w m b ->
  (forall n, In (SConst n) [a; b] -> n < 2^32) ->
  way_ok (rem_way a b r) m -> way_ready (rem_way a b r) m -> placed w T k code ->
  use1 T k code (rem_way a b r) m [(val r, rem_spec (num m a) (num m b))].
Proof.
  intros T k a b r m code Hc Hq Hsp Hqs Ha Hb Hn Hok HR Hp. unfold f_rem in Hc.
  destruct (neg_arg a || neg_arg b) eqn:N; [discriminate|]. apply orb_false_iff in N. destruct N as [N1 N2].
  assert (Hs : forall s, In s [a; b] -> neg_arg s = false -> sval m s = num m s).
  { intros [c|v] Hin Hneg; [|reflexivity]. cbn [sval num neg_arg] in *. apply u32_small. specialize (Hn c Hin). lia. }
  assert (Sa : sval m a = num m a) by (apply Hs; cbn; auto). assert (Sb : sval m b = num m b) by (apply Hs; cbn; auto).
  destruct b as [cb|y].
  - destruct a as [ca|x].
    + injection Hc as <-. cbn [neg_arg num] in *. fold (rem_spec ca cb) in Hp |- *.
      assert (R1 : 0 <= rem_spec ca cb < 2^32).
      { pose proof (Hn ca (or_introl eq_refl)). pose proof (Hn cb (or_intror (or_introl eq_refl))). unfold rem_spec.
        destruct (Z.eqb_spec cb 0); [lia|]. pose proof (Z.mod_pos_bound ca cb ltac:(lia)). lia. }
      pose proof (seq_consts T k [(DVar r, SetTo, SConst (rem_spec ca cb))] m) as Q.
      cbn [map with_mod rpair_dst snd fst sval dst_epd] in Q. rewrite !u32_small in Q by apply R1.
      destruct Q as (m' & A & B & K).
      * intros d md s [E|[]]; injection E as <- <- <-; (split; [reflexivity|split; [reflexivity|split; [apply (valcell_val w Hw); auto|eexists; reflexivity]]]).
      * repeat constructor.
      * exact Hp.
      * exists m'. cbn [rem_way way_S way_ready]. split; [exact A|]. split; [|auto]. eapply changes_weaken; [|exact B]. auto.
    + injection Hc as <-. cbn [rem_way num] in *.
      destruct (call_use T k (KCRem cb) [SVar x] [val r] m eq_refl Hok HR Hp) as (m' & A & B & K & R). exists m'. split; [exact A|]. split; [|auto].
      eapply changes_weaken with (S := way_S (WCall (KCRem cb) [SVar x] [val r])); [auto|]. cbn [map meaning nth sval] in B. unfold rem_spec. destruct (cb =? 0); exact B.
  - assert (Ec : code = func_call same same_u perm T k (fd_f (L_fn L KDiv)) [a; SVar y] [val (L_spare L); val r]) by (destruct a; injection Hc as <-; reflexivity).
    rewrite Ec in *. assert (Ew : rem_way a (SVar y) r = WCall KDiv [a; SVar y] [val (L_spare L); val r]) by (destruct a; reflexivity).
    rewrite Ew in *. destruct (call_use T k KDiv [a; SVar y] [val (L_spare L); val r] m eq_refl Hok HR Hp) as (m' & A & B & K & R). exists m'. split; [exact A|]. split; [|auto].
    cbn [map meaning nth] in B. rewrite Sa, Sb in B. unfold rem_spec. split.
    + intros c z [E|[]]. injection E as <- <-. cbn [num] in B |- *. apply (proj1 B). destruct (get m (val y) =? 0); right; left; reflexivity.
    + intros c Hc' Hl. apply (proj2 B).
      * intros Q. apply Hc'. left. exact Q.
      * intros d z Hin. apply in_combine_l in Hin. destruct Hin as [<-|[<-|[]]].
        -- intros Q. apply Hc'. right. symmetry. exact Q.
        -- eapply Hl. left. reflexivity.
Qed.

(* dividing two constants by zero: the quotient alone is not compiled although
   the pair is *)
Theorem C12_quot_const_zero_refuted :
  (forall T k x q, f_quot same same_u perm T L k (SConst x) (SConst 0) q = None) /\
  (forall T k x q r, 0 <= x -> exists code, f_div same same_u perm T L k (SConst x) (SConst 0) q r = Some code).
Proof.
  split.
  - intros T k x q. unfold f_quot. destruct (neg_arg (SConst x) || neg_arg (SConst 0)); reflexivity.
  - intros T k x q r Hx. unfold f_div. cbn [neg_arg]. replace (x <? 0) with false by lia. eexists. reflexivity.
Qed.

(* ---------- C13: the functions for constants agree with the general ones ---------- *)
Theorem C13_constant_functions : forall n d, 
  (calc_fn w same same_u perm (KCMul n) d -> forall a, 0 <= a < 2^32 -> fd_F d [a] = meaning KMul [a; u32 n]) /\
  (0 <= n < 2^32 ->
   (calc_fn w same same_u perm (KCDiv n) d -> forall a, 0 <= a < 2^32 -> fd_F d [a] = meaning KDiv [a; n]) /\
   (calc_fn w same same_u perm (KCQuot n) d -> forall a, 0 <= a < 2^32 -> fd_F d [a] = [nth 0 (meaning KDiv [a; n]) 0]) /\
   (calc_fn w same same_u perm (KCRem n) d -> forall a, 0 <= a < 2^32 -> fd_F d [a] = [nth 1 (meaning KDiv [a; n]) 0])).
Proof.
  assert (H1 : forall a : Z, 0 <= a < 2^32 -> forall x, In x [a] -> 0 <= x < 2^32) by (intros a Ha x [<-|[]]; exact Ha).
  intros n d. split; [|intros Hn; split; [|split]]; intros H a Ha;
    (destruct (calc_fn_ok w Hw same same_u Hsame perm Hperm _ d H) as [_ HF]; rewrite HF; [|reflexivity|apply H1; exact Ha]); cbn [meaning nth].
  - f_equal. unfold u32. rewrite Z.mul_mod_idemp_r by discriminate. reflexivity.
  - reflexivity.
  - destruct (n =? 0); reflexivity.
  - destruct (n =? 0); reflexivity.
Qed.

(* ---------- the operands of a call are left alone ---------- *)
Theorem C11_C12_operands_unharmed : forall T k K args rds m v,
  length args = arity K ->
  way_ok (WCall K args rds) m -> way_ready (WCall K args rds) m -> placed w T k (func_call same same_u perm T k (fd_f (L_fn L K)) args rds) ->
  In v (vargs args) -> ~ fd_S (L_fn L K) (val v) -> ~ In (val v) rds -> (forall d, In d rds -> exists u, d = val u /\ In u vars) ->
  exists m', runs w (lbl T k, m) (lbl T (k + length (func_call same same_u perm T k (fd_f (L_fn L K)) args rds)), m') /\
    changes (way_S (WCall K args rds)) m m' (combine rds (meaning K (map (sval m) args))) /\ get m' (val v) = get m (val v) /\ ordinary m' v.
Proof.
  intros T k K args rds m v Hl Hok HR Hp Hv HS Hrd Hu.
  destruct (call_use T k K args rds m Hl Hok HR Hp) as (m' & A & B & C & D). exists m'. split; [exact A|]. split; [exact B|].
  destruct Hok as (H1 & H2 & H3). destruct (co_vars _ _ _ _ _ H2 v Hv) as (V1 & V2 & V3 & V4).
  split; [|apply C; auto]. destruct (calc_fn_ok w Hw same same_u Hsame perm Hperm K _ H1) as [(F1 & _ & _) _].
  apply (proj2 B).
  - intros [[(u & g & Q1 & Q2 & Q3)|[Q|[(y & Q1 & Q2)|(d & Q1 & Q2)]]]|[(y & Q1 & Q2)|Q]].
    + revert Q3. apply (vsep w Hw); auto; [|right; destruct Q2 as [->|[->| ->]]; discriminate]. apply (co_vars _ _ _ _ _ H2 u Q1).
    + eapply (proj2 (fw_nptr _ _ F1)); [exact V1|symmetry; exact Q].
    + revert Q2. apply (vsep w Hw); auto; [|right; discriminate]. apply (fw_rvars _ _ F1 y Q1).
    + apply (V4 d Q1). symmetry. exact Q2.
    + revert Q2. apply (vsep w Hw); auto; [|right; discriminate]. apply (fw_rvars _ _ F1 y Q1).
    + apply HS. exact Q.
  - intros d z Hin. apply in_combine_l in Hin. destruct (Hu d Hin) as (u & -> & Hu'). apply (vsep w Hw); auto. left. intros ->. apply Hrd. exact Hin.
Qed.
End W.
Print Assumptions C11_f_mul.
Print Assumptions C12_f_div.
Print Assumptions C12_quot.
Print Assumptions C12_rem.
Print Assumptions C12_quot_const_zero_refuted.
Print Assumptions C13_constant_functions.
Print Assumptions C15_bitlshift.
Print Assumptions C15_bitrshift.
Print Assumptions C11_C12_operands_unharmed.
