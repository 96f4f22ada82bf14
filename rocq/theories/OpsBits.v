(* Correctness of the bitwise operators and comparisons (OpsModel.v). *)
From Coq Require Import ZArith Lia Bool List.
From Verif Require Import Lib Word Machine MachineProofs VarModel VarSpec VarProofs SeqProofs WordX OpsModel OpsSpec OpsBase OpsProofs OpsArith.
Import ListNotations.
Open Scope Z_scope.

Section W.
Variable w : world.
Hypothesis Hw : world_ok w.
Notation vars := (W_vars w).
Notation val v := (vc v FVal).
Variable same same_u : dst -> dst -> bool.
Hypothesis Hsame : forall a b, same a b = true -> u32 (dst_epd a) = u32 (dst_epd b).
Variable T : nat -> Z.
Notation Seq := (SeqCompute same same_u T).

Ltac ordv := repeat match goal with H : ord_src _ _ (SVar _) |- _ => cbn [ord_src] in H; destruct H end;
  repeat match goal with H : ordinary ?m ?v |- _ =>
    lazymatch goal with _ : get m (vc v FMask) = _ |- _ => fail | _ => pose proof (proj1 H) end end.

(* ---------- a list followed by the trigger it patches ---------- *)
Lemma patched_does k l rl m a c x :
  let j := (k + length (Seq k (l 0%Z)))%nat in let e := wmask T j in
  length (Seq k (l e)) = length (Seq k (l 0%Z)) ->
  good_list w (l e) -> (forall v, In v (srcs_of (l e)) -> ordinary m v) ->
  resolve (fun _ => None) (l e) = Some rl ->
  patchable w e -> valcell w a -> ~ scratch (srcs_of (l e)) a ->
  (forall d md s, In (d, md, s) (l e) -> dst_epd d = e \/ dst_epd d = a) ->
  placed w T k (patched same same_u T k l a c) ->
  u32 (wset (get (assign_all m rl) e) (get (assign_all m rl) a) (u32 c)) = x ->
  does w T k (patched same same_u T k l a c) (tmp (srcs_of (l e)) [e]) m [(a, x)].
Proof.
  intros j e Hlen Hg Ho Hr He Ha Hns Hd Hp Hx.
  unfold patched in *. fold j in Hp |- *. fold e in Hp |- *.
  destruct (placed_app _ _ _ _ _ Hp) as [P1 P2].
  assert (Ej : (k + length (Seq k (l e)) = j)%nat) by (rewrite Hlen; reflexivity).
  rewrite Ej in P2.
  destruct (seq_plain w Hw same same_u Hsame T k (l e) rl m Hg Ho P1 Hr) as (m1 & A & B & C).
  rewrite Ej in A.
  assert (Hnse : ~ scratch (srcs_of (l e)) e).
  { apply (sep_not_scratch w); [apply (good_srcs w); exact Hg|apply He]. }
  assert (Hdo : acts_do (W_prot w) m1 [write T j a c] (upd m1 a (wset (get m1 e) (get m1 a) (u32 c)))).
  { unfold write. apply do_cons_DX with (a := a); [reflexivity|apply Ha|apply Ha|]. apply do_nil. }
  exists (upd m1 a (wset (get m1 e) (get m1 a) (u32 c))). split; [|split].
  - rewrite app_length. replace (k + (length (Seq k (l e)) + length (Raw1 T j [] [write T j a c])))%nat
      with (j + length (Raw1 T j [] [write T j a c]))%nat by lia.
    eapply runs_trans; [exact A|]. apply raw_run; [exact P2|apply conds_nil|exact Hdo].
  - split.
    + intros a' x' [H|[]]. injection H as <- <-. rewrite get_upd_eq, !B by assumption. exact Hx.
    + intros b Hb Hl. assert (Hab : idx a <> idx b) by (apply (Hl a x); left; reflexivity).
      rewrite get_upd_ne by exact Hab. rewrite B.
      * apply assign_all_other. intros d md s Hin.
        destruct (resolve_dsts _ _ _ Hr d md s Hin) as (md' & Hin').
        destruct (Hd _ _ _ Hin') as [Q|Q]; rewrite Q; auto.
        intros E. apply Hb. right. exists e. split; [left; reflexivity|auto].
      * intros Q. apply Hb. left. exact Q.
  - intros v Hv HO. destruct (C v Hv HO) as [O1 O2].
    split; rewrite get_upd_ne; auto; apply Ha; auto; discriminate.
Qed.

(* the number of triggers of a short list depends only on its sources *)
Definition simst (n : Z) (s s' : sst) : Prop :=
  q_srcs s = q_srcs s' /\ q_const s = q_const s' /\ 0 <= q_count s <= n /\ 0 <= q_count s' <= n /\
  (q_count s = 0 <-> q_count s' = 0) /\ length (q_out s) = length (q_out s').

Lemma simst_flush k k' n s s' : 0 <= n -> simst n s s' -> simst n (flush same T k s) (flush same T k' s').
Proof.
  intros Hn (H1 & H2 & H3 & H4 & H5 & H6). unfold flush.
  destruct (Z.eqb_spec (q_count s) 0) as [E|E], (Z.eqb_spec (q_count s') 0) as [E'|E'].
  - unfold simst. auto 10.
  - exfalso. apply E', H5, E.
  - exfalso. apply E, H5, E'.
  - destruct (seq_sub same T (k + length (q_out s)) (q_sub s) (q_dict s)) as [t1 d1].
    destruct (seq_sub same T (k' + length (q_out s')) (q_sub s') (q_dict s')) as [t2 d2].
    unfold simst. cbn [q_srcs q_const q_count q_out]. rewrite !app_length. cbn [length].
    split; [reflexivity|]. split; [reflexivity|]. split; [lia|]. split; [lia|]. split; [tauto|lia].
Qed.

Lemma simst_step k k' n s s' p p' : snd p = snd p' -> 0 <= n <= 57 -> simst n s s' ->
  simst (n + 3) (seq_step same same_u T k s p) (seq_step same same_u T k' s' p').
Proof.
  intros Hp Hn Hs. destruct p as [[d md] sr], p' as [[d' md'] sr']. cbn [snd] in Hp. subst sr'.
  pose proof (simst_flush k k' n s s' ltac:(lia) Hs) as Hf.
  destruct Hs as (H1 & H2 & H3 & H4 & H5 & H6).
  assert (C1 : (61 <=? q_count s) = false) by lia. assert (C2 : (61 <=? q_count s') = false) by lia.
  destruct sr as [c|v]; cbn [seq_step]; rewrite C1, C2.
  - rewrite <- H2. destruct (negb (q_const s)) eqn:Eb.
    + destruct Hf as (F1 & F2 & F3 & F4 & F5 & F6). unfold simst. cbn [q_srcs q_const q_count q_out].
      split; [exact F1|]. split; [exact F2|]. repeat split; try lia.
    + unfold simst. cbn [q_srcs q_const q_count q_out].
      split; [exact H1|]. split; [exact H2|]. repeat split; try lia.
  - rewrite <- H1.
    assert (Hnn : forall pv dd mm, 1 <= match lookup v pv with
         | Some (pd, pm) => 3 - (if same_u dd pd then 1 else 0) - (if omod_eqb mm pm then 1 else 0)
         | None => 3 end <= 3).
    { intros pv dd mm. destruct (lookup v pv) as [[pd pm]|]; [|lia].
      destruct (same_u dd pd), (omod_eqb mm pm); lia. }
    destruct (memZ v (q_srcs s)).
    + destruct Hf as (F1 & F2 & F3 & F4 & F5 & F6). unfold simst. cbn [q_srcs q_const q_count q_out].
      pose proof (Hnn (q_prev (flush same T k s)) d md). pose proof (Hnn (q_prev (flush same T k' s')) d' md').
      split; [rewrite F1; reflexivity|]. split; [reflexivity|]. repeat split; try lia.
    + unfold simst. cbn [q_srcs q_const q_count q_out].
      pose proof (Hnn (q_prev s) d md). pose proof (Hnn (q_prev s') d' md').
      split; [rewrite H1; reflexivity|]. split; [reflexivity|]. repeat split; try lia.
Qed.

Lemma seq_len_small k k' l l' : map snd l = map snd l' -> (length l <= 19)%nat -> length (Seq k l) = length (Seq k' l').
Proof.
  intros He Hl. unfold SeqCompute.
  assert (G : forall l l' n s s', map snd l = map snd l' -> 0 <= n -> n + 3 * Z.of_nat (length l) <= 57 -> simst n s s' ->
     simst (n + 3 * Z.of_nat (length l)) (fold_left (seq_step same same_u T k) l s) (fold_left (seq_step same same_u T k') l' s')).
  { clear He Hl l l'. induction l as [|p l IH]; intros [|p' l'] n s s' He Hn Hb Hs; try discriminate.
    - cbn [length fold_left]. replace (n + 3 * Z.of_nat 0) with n by lia. exact Hs.
    - cbn [map] in He. injection He as E1 E2. cbn [fold_left length] in *.
      replace (n + 3 * Z.of_nat (S (length l))) with ((n + 3) + 3 * Z.of_nat (length l)) by lia.
      apply IH; auto; try lia. apply simst_step; auto. lia. }
  assert (H0 : simst 0 (mksst [] [] true 0 [] [] []) (mksst [] [] true 0 [] [] [])).
  { unfold simst. cbn. repeat split; auto; lia. }
  specialize (G l l' 0 _ _ He ltac:(lia) ltac:(lia) H0).
  apply (simst_flush k k') in G; [|lia]. apply G.
Qed.

Ltac dest2 := let d := fresh in let md := fresh in let s := fresh in let H := fresh in
  intros d md s H; cbn [In] in H;
  repeat (destruct H as [H|H]; [injection H as <- <- <-; first [left; reflexivity|right; reflexivity]|]); destruct H.
Ltac patch := eapply patched_does;
  [apply seq_len_small; [reflexivity|cbn; lia]|good|ords|reflexivity|assumption|apply (valcell_val w Hw); assumption
  |apply (nsc w Hw); [inclv|assumption]|dest2|assumption|asg; cbn [do_mod]].

(* where the patched action lies *)
Definition ior_cell k o := wmask T (k + length (Seq k [(DExpr 0, Some SetTo, SVar o)])).
Definition iand_cell k o := wmask T (k + length (Seq k [(DExpr 0, Some SetTo, SConst 4294967295); (DExpr 0, Some Subtract, SVar o)])).

Definition ior_cells k other := match other with SVar o => [ior_cell k o] | SConst _ => [] end.
Definition iand_cells k other := match other with SVar o => [iand_cell k o] | SConst _ => [] end.

Lemma v_ior_does k self other m :
  In self vars -> ord_src w m other -> (forall e, In e (ior_cells k other) -> patchable w e) ->
  placed w T k (v_ior same same_u T k self other) ->
  does w T k (v_ior same same_u T k self other) (tmp (svar other) (ior_cells k other)) m
    [(val self, Z.lor (get m (val self)) (sval m other))].
Proof.
  intros Hs Ho He Hp. destruct other as [c|o]; cbn [v_ior ior_cells svar sval] in *; ordv.
  - apply lv_ior_does; auto. apply (valcell_val w Hw); auto.
  - specialize (He _ (or_introl eq_refl)). unfold ior_cell in *. destruct He as [He1 He2].
    assert (He : patchable w (wmask T (k + length (Seq k [(DExpr 0, Some SetTo, SVar o)])))) by (split; assumption).
    pose proof (get_range m (val self)). pose proof (get_range m (val o)).
    patch. rewrite u32_get. change (u32 4294967295) with 4294967295. rewrite wset_or by assumption.
    apply u32_small, lor_range; lia.
Qed.
Lemma v_iand_does k self other m :
  In self vars -> ord_src w m other -> (forall e, In e (iand_cells k other) -> patchable w e) ->
  placed w T k (v_iand same same_u T k self other) ->
  does w T k (v_iand same same_u T k self other) (tmp (svar other) (iand_cells k other)) m
    [(val self, Z.land (get m (val self)) (sval m other))].
Proof.
  intros Hs Ho He Hp. destruct other as [c|o]; cbn [v_iand iand_cells svar sval] in *; ordv.
  - apply lv_iand_does; auto. apply (valcell_val w Hw); auto.
  - specialize (He _ (or_introl eq_refl)). unfold iand_cell in *. destruct He as [He1 He2].
    assert (He : patchable w (wmask T (k + length (Seq k [(DExpr 0, Some SetTo, SConst 4294967295); (DExpr 0, Some Subtract, SVar o)])))) by (split; assumption).
    pose proof (get_range m (val self)). pose proof (get_range m (val o)).
    patch. rewrite !(u32_small 4294967295) by lia. rewrite Z.max_r by lia. rewrite (u32_small (_ - _)) by lia.
    change (u32 0) with 0. rewrite wset_and by assumption. apply u32_small, land_range; lia.
Qed.
End W.
