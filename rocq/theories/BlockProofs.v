From Coq Require Import ZArith Lia List Bool String.
From Verif Require Import Dict BlockModel.
Import ListNotations.
Open Scope Z_scope.

(* ---------- specification: properly nested call sequences ---------- *)
Inductive nested : list call -> Prop :=
| n_nil : nested []
| n_block n u body rest : nested body -> nested rest -> nested (Begin n u :: body ++ End n :: rest).

(* blocks open after a sequence of calls, innermost first *)
Inductive open_blocks : list call -> list block -> Prop :=
| o_nested w : nested w -> open_blocks w []
| o_open w n u v bs : nested w -> open_blocks v bs -> open_blocks (w ++ Begin n u :: v) (bs ++ [(n, u)]).

Lemma nested_app a b : nested a -> nested b -> nested (a ++ b).
Proof.
  induction 1 as [|n u body rest H1 IH1 H2 IH2]; intros Hb; [exact Hb|].
  cbn [app]. rewrite <- app_assoc. cbn [app]. constructor; auto.
Qed.

Definition inv (m : manager) : Prop :=
  forall n, match dget string_dec n (lastblockdict m) with
            | Some l => l = filter (fun b => if string_dec (fst b) n then true else false) (blockstru m)
            | None => filter (fun b => if string_dec (fst b) n then true else false) (blockstru m) = []
            end.
Lemma inv_empty : inv empty_manager.
Proof. intros n. reflexivity. Qed.
Lemma create_stru n u m : blockstru (EUDCreateBlock n u m) = (n, u) :: blockstru m.
Proof. unfold EUDCreateBlock. destruct (dget string_dec n (match dget string_dec n (lastblockdict m) with None => _ | Some _ => _ end)); reflexivity. Qed.
Lemma create_inv n u m : inv m -> inv (EUDCreateBlock n u m).
Proof.
  intros H k. rewrite create_stru. cbn [filter fst]. unfold EUDCreateBlock. pose proof (H n) as Hn. pose proof (H k) as Hk.
  destruct (dget string_dec n (lastblockdict m)) as [l|] eqn:E.
  - rewrite E. cbn [lastblockdict]. destruct (string_dec n k) as [<-|N].
    + rewrite dget_dset_same. f_equal. exact Hn.
    + rewrite dget_dset_other by congruence. exact Hk.
  - rewrite dget_dset_same. cbn [lastblockdict]. destruct (string_dec n k) as [<-|N].
    + rewrite dget_dset_same. rewrite Hn. reflexivity.
    + rewrite dget_dset_other, dget_dset_other by congruence. exact Hk.
Qed.
Lemma pop_ok n u rest m : inv m -> blockstru m = (n, u) :: rest ->
  exists m', EUDPopBlock n m = Some ((n, u), m') /\ blockstru m' = rest /\ inv m'.
Proof.
  intros H E. unfold EUDPopBlock. rewrite E. cbn [fst]. destruct (string_dec n n) as [_|]; [|congruence].
  pose proof (H n) as Hn. rewrite E in Hn. cbn [filter fst] in Hn. destruct (string_dec n n) as [_|]; [|congruence].
  destruct (dget string_dec n (lastblockdict m)) as [l|]; [|discriminate]. subst l.
  eexists. split; [reflexivity|]. split; [reflexivity|]. intros k. cbn [lastblockdict blockstru].
  destruct (string_dec n k) as [<-|N].
  - rewrite dget_dset_same. reflexivity.
  - rewrite dget_dset_other by congruence. pose proof (H k) as Hk. rewrite E in Hk. cbn [filter fst] in Hk.
    destruct (string_dec n k); [congruence|]. exact Hk.
Qed.
Lemma pop_none n m : (forall u rest, blockstru m <> (n, u) :: rest) -> EUDPopBlock n m = None.
Proof.
  intros H. unfold EUDPopBlock. destruct (blockstru m) as [|[k u] rest]; [reflexivity|]. cbn [fst].
  destruct (string_dec k n) as [->|]; [|reflexivity]. exfalso. apply (H u rest). reflexivity.
Qed.

Lemma run_app a b m : run_calls m (a ++ b) = match run_calls m a with Some m' => run_calls m' b | None => None end.
Proof. revert m. induction a as [|c a IH]; intros m; cbn; [reflexivity|]. destruct (run_call m c); auto. Qed.

Lemma run_nested w : nested w -> forall m, inv m -> exists m', run_calls m w = Some m' /\ inv m' /\ blockstru m' = blockstru m.
Proof.
  induction 1 as [|n u body rest H1 IH1 H2 IH2]; intros m Hm; [exists m; auto|].
  cbn [run_calls run_call]. rewrite run_app.
  destruct (IH1 (EUDCreateBlock n u m) (create_inv n u m Hm)) as (m1 & E1 & I1 & S1). rewrite E1. cbn [run_calls run_call].
  rewrite create_stru in S1. destruct (pop_ok n u (blockstru m) m1 I1 S1) as (m2 & E2 & S2 & I2). rewrite E2.
  destruct (IH2 m2 I2) as (m3 & E3 & I3 & S3). exists m3. rewrite S3, S2. auto.
Qed.
Lemma run_open w bs : open_blocks w bs -> forall m, inv m ->
  exists m', run_calls m w = Some m' /\ inv m' /\ blockstru m' = bs ++ blockstru m.
Proof.
  induction 1 as [w H|w n u v bs H1 H2 IH]; intros m Hm; [apply run_nested; auto|].
  rewrite run_app. destruct (run_nested w H1 m Hm) as (m1 & E1 & I1 & S1). rewrite E1. cbn [run_calls run_call].
  destruct (IH (EUDCreateBlock n u m1) (create_inv n u m1 I1)) as (m2 & E2 & I2 & S2).
  exists m2. split; [exact E2|]. split; [exact I2|]. rewrite S2, create_stru, S1, <- app_assoc. reflexivity.
Qed.
(* extending a sequence by one call *)
Lemma open_begin w bs n u : open_blocks w bs -> open_blocks (w ++ [Begin n u]) ((n, u) :: bs).
Proof.
  induction 1 as [w H|w n' u' v bs H1 H2 IH].
  - apply (o_open w n u [] []); [exact H|]. constructor. constructor.
  - rewrite <- app_assoc. cbn [app]. apply (o_open w n' u' _ ((n, u) :: bs)); auto.
Qed.
Lemma open_end w bs n u : open_blocks w ((n, u) :: bs) -> open_blocks (w ++ [End n]) bs.
Proof.
  intros H. remember ((n, u) :: bs) as l eqn:E. revert bs E.
  induction H as [w H|w n' u' v cs H1 H2 IH]; intros bs E; [discriminate|].
  rewrite <- app_assoc. cbn [app]. destruct cs as [|c cs].
  - cbn in E. injection E as -> -> <-. inversion H2; subst.
    + constructor. apply nested_app; [exact H1|]. constructor; [assumption|constructor].
    + destruct bs; discriminate.
  - cbn in E. injection E as -> <-. apply (o_open w n' u'); auto.
Qed.
Lemma run_open_complete w : forall m, run_calls empty_manager w = Some m -> open_blocks w (blockstru m) /\ inv m.
Proof.
  induction w as [|c w IH] using rev_ind; intros m H.
  - cbn in H. injection H as <-. split; [repeat constructor|apply inv_empty].
  - rewrite run_app in H. destruct (run_calls empty_manager w) as [m1|]; [|discriminate].
    destruct (IH m1 eq_refl) as [O I]. cbn [run_calls] in H. destruct (run_call m1 c) as [m2|] eqn:E; [|discriminate]. injection H as <-.
    destruct c as [n u|n]; cbn [run_call] in E.
    + injection E as <-. rewrite create_stru. split; [apply open_begin; exact O|apply create_inv; exact I].
    + destruct (blockstru m1) as [|[k u] rest] eqn:Es.
      { rewrite pop_none in E; [discriminate|]. rewrite Es. discriminate. }
      destruct (string_dec k n) as [->|N].
      * destruct (pop_ok n u rest m1 I Es) as (m' & E' & S' & I'). rewrite E' in E. injection E as <-. rewrite S'.
        split; [eapply open_end; exact O|exact I'].
      * rewrite pop_none in E; [discriminate|]. rewrite Es. intros; congruence.
Qed.
Lemma func_body_spec w : func_body w = true <-> nested w.
Proof.
  unfold func_body. split.
  - destruct (run_calls empty_manager w) as [m|] eqn:E; [|discriminate]. intros H. destruct (run_open_complete w m E) as [O _].
    unfold manager_empty in H. destruct (blockstru m); [|discriminate]. inversion O; subst; [assumption|]. destruct bs; discriminate.
  - intros H. destruct (run_nested w H empty_manager inv_empty) as (m & E & _ & S). rewrite E. unfold manager_empty. rewrite S. reflexivity.
Qed.
Lemma of_name_spec w m bs n : run_calls empty_manager w = Some m -> open_blocks w bs ->
  blockstru m = bs /\ EUDGetLastBlock m = hd_error bs /\
  EUDGetLastBlockOfName n m = find (fun b => if string_dec (fst b) n then true else false) bs.
Proof.
  intros E O. destruct (run_open w bs O empty_manager inv_empty) as (m' & E' & I & S). rewrite E in E'. injection E' as <-.
  rewrite app_nil_r in S. split; [exact S|]. unfold EUDGetLastBlock, EUDGetLastBlockOfName. rewrite S. split; [reflexivity|].
  pose proof (I n) as H. rewrite S in H.
  assert (F : forall l, hd_error (filter (fun b : block => if string_dec (fst b) n then true else false) l) = find (fun b => if string_dec (fst b) n then true else false) l).
  { induction l as [|b l IH]; [reflexivity|]. cbn. destruct (string_dec (fst b) n); [reflexivity|exact IH]. }
  rewrite <- F. destruct (dget string_dec n (lastblockdict m)); [rewrite H; reflexivity|]. symmetry. exact (f_equal (@hd_error block) H).
Qed.
