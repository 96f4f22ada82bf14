(* The library of arithmetic functions: every function in it computes what its
   kind says. *)
From Coq Require Import ZArith Lia Bool List Permutation ZifyBool ZifyNat.
From Verif Require Import Lib Word Machine MachineProofs VarModel VarSpec VarProofs SeqProofs NonSeqProofs
  OpsModel OpsSpec OpsBase OpsProofs OpsArith OpsBits OpsXor OpsShift OpsFinal FuncModel FuncSpec FuncProofs FuncBody MulModel MulArith MulConst MulVar DivVar
  ShiftVar CalcModel.
Import ListNotations.
Open Scope Z_scope.

Section W.
Variable w : world.
Hypothesis Hw : world_ok w.
Notation vars := (W_vars w).
Variable same same_u : dst -> dst -> bool.
Hypothesis Hsame : forall a b, same a b = true -> u32 (dst_epd a) = u32 (dst_epd b).
Variable perm : list pair -> list pair.
Hypothesis Hperm : forall l, Permutation (perm l) l.
Notation Ret := (func_return same same_u perm).

(* [calc_fn K d]: the function described by d is in place with the body of K *)
Inductive calc_fn : kind -> fdesc -> Prop :=
| cf_mul T a b ret :
    let body := eud_mul_body T a b ret in
    let f := mkfunc T (length body) [DVar a; DVar b] [ret] in
    fn_wf w f -> a <> ret -> b <> ret -> (forall c, In c (mul_cells T) -> patchable w c) ->
    NoDup (map idx (fn_nptr f :: mul_cells T)) -> placed w T 0 body ->
    calc_fn KMul (mkfd f (mul_inv T) (mul_cells T) (tmp [b] (val ret :: val b :: mul_cells T)) (fun l => [u32 (nth 0 l 0 * nth 1 l 0)]))
| cf_div T a b ret x r0 r1 len :
    let f := mkfunc T len [DVar a; DVar b] [r0; r1] in
    let body := eud_div_body same same_u perm T a b ret x f in
    len = length body -> fn_wf w f -> incl [ret; x] vars -> NoDup [a; b; ret; x; r0; r1] ->
    (forall c, In c (div_cells T) -> patchable w c) -> NoDup (map idx (fn_nptr f :: div_cells T)) -> placed w T 0 body ->
    calc_fn KDiv (mkfd f (div_inv T ret x) (div_state T ret x)
      (tmp [b; x; ret; a] (val r0 :: val r1 :: val ret :: val a :: div_fill T x)) div_F)
| cf_shl T a b r len :
    let f := mkfunc T len [DVar a; DVar b] [r] in
    let body := bitlshift_body same same_u perm T a b f in
    len = length body -> fn_wf w f -> a <> r -> b <> r -> patchable w (lsh_c T) -> idx (lsh_c T) <> idx (fn_nptr f) -> placed w T 0 body ->
    calc_fn KShl (mkfd f (lsh_inv T) [lsh_c T] (tmp [a] [val a; val b; val r; lsh_c T]) (fun l => [shl (nth 0 l 0) (nth 1 l 0)]))
| cf_shr T a b r0 ret e q r len nx er TE lenE D :
    let fE := mkfunc TE lenE [DVar nx] [er] in
    let bodyE := exp2_body same same_u TE nx er in
    let E := mkfd fE (fun _ => True) [] (tmp [] [val er]) exp2_F in
    let f := mkfunc T len [DVar a; DVar b] [r0] in
    let body := bitrshift_body same same_u perm T (fd_f E) (fd_f D) a b ret e q r f in
    lenE = length bodyE -> fn_wf w fE -> nx <> er -> placed w TE 0 bodyE -> calc_fn KDiv D ->
    len = length body -> fn_wf w f -> incl [ret; e; q; r] vars -> NoDup [a; b; ret; e; q; r; r0] -> patchable w (rsh_c T) ->
    (forall m, (forall v, In v [a; b; e] -> ordinary m v) ->
       call_ok w (fd_f E) [SVar b] [val e] m /\ call_ok w (fd_f D) [SVar a; SVar e] [val q; val r] m) ->
    spares (E, [SVar b], [val e]) E -> spares (E, [SVar b], [val e]) D ->
    spares (D, [SVar a; SVar e], [val q; val r]) D -> spares (D, [SVar a; SVar e], [val q; val r]) E ->
    (forall x, In x [val a] -> ~ call_tmp (fd_f E) [SVar b] (fd_S E) x) ->
    (forall x, In x (fd_state E ++ fd_state D) -> ~ tmp [q; ret] [val ret; val r0; rsh_c T] x) ->
    ~ call_tmp (fd_f E) [SVar b] (fd_S E) (rsh_c T) -> ~ call_tmp (fd_f D) [SVar a; SVar e] (fd_S D) (rsh_c T) ->
    (forall c, In c (guard f) -> ~ rsh_S T E D a b ret e q r r0 c) ->
    placed w T 0 body ->
    calc_fn KShr (mkfd f (rsh_inv T E D e q ret)
      (rsh_c T :: fd_state E ++ fd_state D ++ [vc nx FMask; vc nx FMod] ++
         flat_map (fun d => match d with DVar v => [vc v FMask; vc v FMod] | _ => [] end) (fn_args (fd_f D)) ++
         flat_map (fun v => [vc v FMask; vc v FMod]) [e; q; ret])
      (rsh_S T E D a b ret e q r r0) (fun l => [shr (nth 0 l 0) (nth 1 l 0)]))
| cf_mulm1 T x_r x t ret len :
    let f := mkfunc T len [DVar x] [ret] in
    let body := mul_m1_body same same_u perm T x_r x t f in
    len = length body -> fn_wf w f -> x <> ret -> In t vars -> t <> x -> t <> ret -> placed w T 0 body ->
    calc_fn (KCMul 0xFFFFFFFF) (mkfd f (fun m => ordinary m t) [vc t FMask; vc t FMod] (tmp [x; t] [val x; val t; val ret]) (fun l => [u32 (- hd 0 l)]))
| cf_ret T x len rets vals K F :
    let f := mkfunc T len [DVar x] rets in
    let body := Ret T 0 f vals in
    len = length body -> fn_wf w f -> ~ In x rets -> length vals = length rets ->
    In (K, vals, F) [(KCMul 0, [SConst 0], fun _ : Z => [0]); (KCMul 1, [SVar x], fun a => [a]);
      (KCDiv 0, [SConst (-1); SVar x], fun a => [0xFFFFFFFF; a]); (KCDiv 1, [SVar x; SConst 0], fun a => [a; 0]);
      (KCQuot 0, [SConst (-1)], fun a => [0xFFFFFFFF]); (KCQuot 1, [SVar x], fun a => [a]);
      (KCRem 0, [SVar x], fun a => [a]); (KCRem 1, [SConst 0], fun a => [0])] ->
    placed w T 0 body ->
    calc_fn K (mkfd f (fun _ => True) [] (tmp [x] (map (fun r => val r) rets)) (fun l => F (hd 0 l)))
| cf_mulf T a ret n len :
    let body := mulf_body same same_u T a ret n in
    let f := mkfunc T len [DVar a] [ret] in
    1 < n < 0xFFFFFFFF -> len = length body -> fn_wf w f -> a <> ret -> placed w T 0 body ->
    calc_fn (KCMul n) (mkfd f (fun _ => True) [] (tmp [] [val ret]) (fun l => [u32 (hd 0 l * n)]))
| cf_divf T a q n len :
    let body := divf_body same same_u T a q n in
    let f := mkfunc T len [DVar a] [q; a] in
    1 < n -> len = length body -> fn_wf w f -> placed w T 0 body ->
    calc_fn (KCDiv n) (mkfd f (fun _ => True) [] (tmp [] [val q; val a]) (fun l => [hd 0 l / n; hd 0 l mod n]))
| cf_quotf2 T q n len :
    let body := quotf2_body T q n in
    let f := mkfunc T len [DVar q] [q] in
    1 < n -> is_pow2 n = true -> len = length body -> fn_wf w f -> placed w T 0 body ->
    calc_fn (KCQuot n) (mkfd f (fun _ => True) [] (tmp [] [val q]) (fun l => [hd 0 l / n]))
| cf_quotf T a q n len :
    let body := quotf_body same same_u T a q n in
    let f := mkfunc T len [DVar a] [q] in
    1 < n -> is_pow2 n = false -> len = length body -> fn_wf w f -> a <> q -> placed w T 0 body ->
    calc_fn (KCQuot n) (mkfd f (fun _ => True) [] (tmp [] [val q; val a]) (fun l => [hd 0 l / n]))
| cf_remf2 T a n len :
    let body := remf2_body T a n in
    let f := mkfunc T len [DVar a] [a] in
    1 < n -> is_pow2 n = true -> len = length body -> fn_wf w f -> placed w T 0 body ->
    calc_fn (KCRem n) (mkfd f (fun _ => True) [] (tmp [] [val a]) (fun l => [hd 0 l mod n]))
| cf_remf T a n len :
    let body := remf_body T a n in
    let f := mkfunc T len [DVar a] [a] in
    1 < n -> is_pow2 n = false -> len = length body -> fn_wf w f -> placed w T 0 body ->
    calc_fn (KCRem n) (mkfd f (fun _ => True) [] (tmp [] [val a]) (fun l => [hd 0 l mod n])).

(* what the functions are for *)
Definition arity (K : kind) : nat := match K with KMul | KDiv | KShl | KShr => 2 | _ => 1 end.
Definition meaning (K : kind) (l : list Z) : list Z :=
  let a := nth 0 l 0 in let b := nth 1 l 0 in
  match K with
  | KMul => [(a * b) mod 2^32]
  | KCMul n => [(a * n) mod 2^32]
  | KDiv => if b =? 0 then [2^32 - 1; a] else [a / b; a mod b]
  | KCDiv n => if n =? 0 then [2^32 - 1; a] else [a / n; a mod n]
  | KCQuot n => if n =? 0 then [2^32 - 1] else [a / n]
  | KCRem n => if n =? 0 then [a] else [a mod n]
  | KShl => [if b <? 32 then (a * 2 ^ b) mod 2^32 else 0]
  | KShr => [if b <? 32 then a / 2 ^ b else 0]
  end.

Lemma ret_private x t : x = t -> private (fun m => ordinary m x) [vc t FMask; vc t FMod].
Proof. intros -> m m' H [O1 O2]. split; rewrite H; cbn [In]; auto. Qed.

Lemma rsh_private T E D e q ret nx : fd_ok w E -> fd_ok w D -> fn_args (fd_f E) = [DVar nx] ->
  private (rsh_inv T E D e q ret)
    (rsh_c T :: fd_state E ++ fd_state D ++ [vc nx FMask; vc nx FMod] ++
       flat_map (fun d => match d with DVar v => [vc v FMask; vc v FMod] | _ => [] end) (fn_args (fd_f D)) ++
       flat_map (fun v => [vc v FMask; vc v FMod]) [e; q; ret]).
Proof.
  intros (E1 & E2 & E3) (D1 & D2 & D3) EA m m' H (I1 & (J1 & J2 & J3) & (K1 & K2 & K3) & I4 & I5 & I6).
  assert (Ord : forall v, In (vc v FMask) (rsh_c T :: fd_state E ++ fd_state D ++ [vc nx FMask; vc nx FMod] ++
       flat_map (fun d => match d with DVar v => [vc v FMask; vc v FMod] | _ => [] end) (fn_args (fd_f D)) ++
       flat_map (fun v => [vc v FMask; vc v FMod]) [e; q; ret]) -> In (vc v FMod) (rsh_c T :: fd_state E ++ fd_state D ++ [vc nx FMask; vc nx FMod] ++
       flat_map (fun d => match d with DVar v => [vc v FMask; vc v FMod] | _ => [] end) (fn_args (fd_f D)) ++
       flat_map (fun v => [vc v FMask; vc v FMod]) [e; q; ret]) -> ordinary m v -> ordinary m' v).
  { intros v A B [O1 O2]. split; rewrite H; auto. }
  split; [|split; [|split; [|split; [|split]]]].
  - rewrite H; [exact I1|left; reflexivity].
  - split; [|split].
    + apply (E3 m m'); [|exact J1]. intros c Hc. apply H. right. apply in_or_app. left. apply in_or_app. auto.
    + intros r Hr. destruct (J2 r Hr). split; rewrite H; auto; right; apply in_or_app; left; apply in_or_app; right; apply in_flat_map; exists r; cbn; auto.
    + intros v Hv. pose proof (J3 v Hv) as O. rewrite EA in Hv. destruct Hv as [Hv|[]]. injection Hv as <-.
      apply Ord; auto; right; apply in_or_app; right; apply in_or_app; right; apply in_or_app; left; cbn; auto.
  - split; [|split].
    + apply (D3 m m'); [|exact K1]. intros c Hc. apply H. right. apply in_or_app. right. apply in_or_app. left. apply in_or_app. auto.
    + intros r Hr. destruct (K2 r Hr). split; rewrite H; auto; right; apply in_or_app; right; apply in_or_app; left; apply in_or_app; right; apply in_flat_map; exists r; cbn; auto.
    + intros v Hv. apply Ord; auto; right; apply in_or_app; right; apply in_or_app; right; apply in_or_app; right; apply in_or_app; left;
        apply in_flat_map; exists (DVar v); cbn; auto.
  - apply Ord; auto; right; apply in_or_app; right; apply in_or_app; right; apply in_or_app; right; apply in_or_app; right; cbn; auto.
  - apply Ord; auto; right; apply in_or_app; right; apply in_or_app; right; apply in_or_app; right; apply in_or_app; right; cbn; auto.
  - apply Ord; auto; right; apply in_or_app; right; apply in_or_app; right; apply in_or_app; right; apply in_or_app; right; cbn; auto 10.
Qed.

Lemma div_F_is D : calc_fn KDiv D -> fd_F D = div_F.
Proof.
  intros H. remember KDiv as K. destruct H; try discriminate; [reflexivity|].
  subst K. cbn [In] in *. repeat match goal with Q : _ \/ _ |- _ => destruct Q as [Q|Q]; [discriminate|] end. contradiction.
Qed.

Theorem calc_fn_ok K d : calc_fn K d ->
  fd_ok w d /\ forall l, length l = arity K -> (forall x, In x l -> 0 <= x < 2^32) -> fd_F d l = meaning K l.
Proof.
  intros H. induction H.
  - split; [split; [assumption|split; [apply eud_mul_computes; auto|apply mul_private]]|]. intros l _ _. reflexivity.
  - split; [split; [assumption|split; [eapply eud_div_computes; eauto|apply div_private]]|]. intros l _ _. reflexivity.
  - split; [split; [assumption|split; [apply (bitlshift_computes w Hw same same_u Hsame perm Hperm); auto|apply lsh_private]]|]. intros l _ _. reflexivity.
  - destruct IHcalc_fn as [HD _]. assert (HE : fd_ok w E).
    { split; [assumption|]. split; [apply (exp2_computes w Hw same same_u Hsame); auto|intros m m' _ _; exact I]. }
    split; [split; [assumption|split; [|apply rsh_private; auto]]|].
    + apply (bitrshift_computes w Hw same same_u Hsame perm Hperm); auto. apply div_F_is. assumption.
    + intros l _ _. reflexivity.
  - split; [split; [assumption|split; [eapply (mul_m1_computes w Hw same same_u Hsame perm Hperm); eauto|apply ret_private; reflexivity]]|].
    intros l Hl Hr. destruct l as [|a [|? ?]]; try discriminate. cbn [fd_F hd meaning nth]. f_equal.
    change (u32 (- a) = u32 (a * 0xFFFFFFFF)). apply u32_eq with (k := - a). ring.
  - split; [split; [assumption|split; [|intros m m' _ _; exact I]]|].
    + apply (return_computes w Hw same same_u Hsame perm Hperm T x len rets vals F); auto.
      * cbn [In] in *. intros v Hv. repeat match goal with Q : _ \/ _ |- _ => destruct Q as [Q|Q]; [injection Q as <- <- <-; cbn in Hv |- *; intuition|] end. contradiction.
      * intros m. cbn [In] in *. repeat match goal with Q : _ \/ _ |- _ => destruct Q as [Q|Q]; [injection Q as <- <- <-; reflexivity|] end. contradiction.
    + intros l Hl Hr. cbn [In] in *.
      repeat match goal with Q : _ \/ _ |- _ => destruct Q as [Q|Q]; [injection Q as <- <- <-; destruct l as [|a [|? ?]]; try discriminate Hl; cbn [fd_F hd nth meaning];
        assert (Ha : 0 <= a < 2^32) by (apply Hr; left; reflexivity); cbn [Z.eqb]; rewrite ?Z.mul_0_r, ?Z.mul_1_r, ?Z.div_1_r, ?Z.mod_1_r, ?(Z.mod_small a) by lia; reflexivity|] end.
      contradiction.
  - split; [split; [assumption|split; [apply (mulf_computes w Hw same same_u Hsame); auto|intros m m' _ _; exact I]]|].
    intros l Hl Hr. destruct l as [|a' [|? ?]]; try discriminate. reflexivity.
  - split; [split; [assumption|split; [apply (divf_computes w Hw same same_u Hsame); auto; lia|intros m m' _ _; exact I]]|].
    intros l Hl Hr. destruct l as [|a' [|? ?]]; try discriminate. cbn [fd_F hd meaning nth]. destruct (Z.eqb_spec n 0); [lia|reflexivity].
  - split; [split; [assumption|split; [apply quotf2_computes; auto; lia|intros m m' _ _; exact I]]|].
    intros l Hl Hr. destruct l as [|a' [|? ?]]; try discriminate. cbn [fd_F hd meaning nth]. destruct (Z.eqb_spec n 0); [lia|reflexivity].
  - split; [split; [assumption|split; [apply (quotf_computes w Hw same same_u Hsame); auto; lia|intros m m' _ _; exact I]]|].
    intros l Hl Hr. destruct l as [|a' [|? ?]]; try discriminate. cbn [fd_F hd meaning nth]. destruct (Z.eqb_spec n 0); [lia|reflexivity].
  - split; [split; [assumption|split; [apply remf2_computes; auto; lia|intros m m' _ _; exact I]]|].
    intros l Hl Hr. destruct l as [|a' [|? ?]]; try discriminate. cbn [fd_F hd meaning nth]. destruct (Z.eqb_spec n 0); [lia|reflexivity].
  - split; [split; [assumption|split; [apply remf_computes; auto; lia|intros m m' _ _; exact I]]|].
    intros l Hl Hr. destruct l as [|a' [|? ?]]; try discriminate. cbn [fd_F hd meaning nth]. destruct (Z.eqb_spec n 0); [lia|reflexivity].
Qed.
End W.
