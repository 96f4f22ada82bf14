(* Concrete worlds, used only to show that hypotheses of theorems can be met and
   to run small programs. *)
From Coq Require Import ZArith Lia Bool List.
From Verif Require Import Lib Word Machine MachineProofs VarModel VarSpec VbufModel VbufWorld.
Import ListNotations.
Open Scope Z_scope.

(* variables in a buffer at EPD 1000, triggers 602 dwords apart from 100000 *)
Definition exT (k : nat) : Z := 100000 + 602 * Z.of_nat k.
Fixpoint find_code (k : nat) (code : list trig) (pc : Z) : option trig :=
  match code with
  | [] => None
  | t :: r => if lbl exT k =? pc then Some t else find_code (S k) r pc
  end.
Fixpoint find_var (vs : list Z) (pc : Z) : option trig :=
  match vs with
  | [] => None
  | v :: r => if pa v =? pc then Some (vtrig v) else find_var r pc
  end.
Definition exvars (n : nat) : list Z := vb_vars 1000 n.
Definition exworld (n : nat) (code : list trig) : world :=
  mkworld (fun pc => match find_var (exvars n) pc with Some t => Some t | None => find_code 0 code pc end)
          (fun _ => false) (exvars n).

Lemma pa_small e : 0 <= e < 2^29 -> pa e = 0x58A364 + 4 * e.
Proof. intros H. unfold pa. apply u32_small. lia. Qed.

Lemma find_var_in vs v : In v vs -> (forall u, In u vs -> 0 <= u < 2^29) -> find_var vs (pa v) = Some (vtrig v).
Proof.
  induction vs as [|u vs IH]; intros Hin Hr; [destruct Hin|].
  cbn [find_var]. destruct (Z.eqb_spec (pa u) (pa v)) as [E|E].
  - rewrite (pa_small u), (pa_small v) in E by (apply Hr; auto; left; reflexivity). replace v with u by lia. reflexivity.
  - apply IH; [destruct Hin as [->|]; [contradiction|auto]|]. intros x Hx. apply Hr. right. exact Hx.
Qed.

Lemma exvars_range n v : (Z.of_nat n < 5000) -> In v (exvars n) -> 999 <= v < 91000.
Proof.
  intros Hn Hv. apply in_map_iff in Hv. destruct Hv as (i & <- & Hi). apply in_seq in Hi.
  rewrite vb_var_eq. lia.
Qed.

Lemma exworld_ok n code : Z.of_nat n < 5000 -> world_ok (exworld n code).
Proof.
  intros Hn. apply (vb_world_ok 1000 n); auto; try lia.
  intros i Hi. rewrite find_var_in; auto.
  - apply in_map. apply in_seq. lia.
  - intros u Hu. apply exvars_range in Hu; lia.
Qed.

Lemma find_code_nth code : forall k i t, nth_error code i = Some t ->
  (Z.of_nat (k + length code) < 100000) -> find_code k code (lbl exT (k + i)) = Some t.
Proof.
  induction code as [|u code IH]; intros k i t H Hl; [destruct i; discriminate|].
  cbn [find_code]. cbn [length] in Hl. destruct i as [|i].
  - rewrite Nat.add_0_r, Z.eqb_refl. exact H.
  - assert (Hi : (i < length code)%nat) by (apply nth_error_Some; cbn in H; congruence).
    unfold lbl, exT. rewrite !pa_small by lia. destruct (Z.eqb_spec (0x58A364 + 4 * (100000 + 602 * Z.of_nat k))
      (0x58A364 + 4 * (100000 + 602 * Z.of_nat (k + S i)))); [lia|].
    replace (k + S i)%nat with (S k + i)%nat by lia. specialize (IH (S k) i t H).
    unfold lbl, exT in IH. rewrite pa_small in IH by lia. apply IH. lia.
Qed.

Lemma find_var_none vs pc : (forall u, In u vs -> pa u <> pc) -> find_var vs pc = None.
Proof.
  induction vs as [|u vs IH]; intros H; cbn [find_var]; auto.
  destruct (Z.eqb_spec (pa u) pc) as [E|]; [exfalso; apply (H u); cbn; auto|].
  apply IH. intros x Hx. apply H. right. exact Hx.
Qed.

Lemma exworld_placed n code : Z.of_nat n < 5000 -> Z.of_nat (length code) < 100000 ->
  placed (exworld n code) exT 0 code.
Proof.
  intros Hn Hc i t H. cbn [exworld W_P].
  assert (Hi : (i < length code)%nat) by (apply nth_error_Some; congruence).
  rewrite find_var_none.
  - apply (find_code_nth code 0 i t H). lia.
  - intros u Hu. apply exvars_range in Hu; auto. unfold lbl, exT. rewrite !pa_small by lia. lia.
Qed.

(* executable runner: n triggers, by total functions *)
Fixpoint runN (P : prog) (n : nat) (pc : Z) (m : mem) : Z * mem :=
  match n with
  | O => (pc, m)
  | S n' => match P pc with
            | Some t => let m' := exec_trig m t in runN P n' (rd m' (t_next t)) m'
            | None => (pc, m)
            end
  end.
