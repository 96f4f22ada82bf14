(* Vocabulary for theorems about functions. Independent of the code that
   generates calls. *)
From Coq Require Import ZArith List Bool.
From Verif Require Import Word Machine MachineProofs VarModel VarSpec OpsSpec FuncModel.
Import ListNotations.
Open Scope Z_scope.

Definition vargs (args : list src) : list Z := flat_map svar args.
Definition arg_dst (w : world) (d : dst) : Prop :=
  match d with DVar v => In v (W_vars w) | DExpr a => patchable w a | DInt _ => False end.

(* a function is in place and its parameters, results and return-address field
   are different cells *)
Record fn_wf (w : world) (f : efunc) : Prop := mk_fn_wf {
  fw_end : placed w (fn_T f) (fn_len f) (func_end f);
  fw_rets : NoDup (fn_rets f);
  fw_rvars : incl (fn_rets f) (W_vars w);
  fw_nptr : patchable w (fn_nptr f);
  fw_args : forall d, In d (fn_args f) -> arg_dst w d;
  fw_sep : NoDup (idx (fn_nptr f) :: map (fun d => idx (dst_epd d)) (fn_args f)) }.

(* result variables are in the state in which functions leave them *)
Definition rets_ready (f : efunc) (m : mem) : Prop :=
  forall r, In r (fn_rets f) -> get m (vc r FMask) = 0xFFFFFFFF /\ get m (vc r FMod) = w6 SetTo.

(* what a caller must respect *)
Record call_ok (w : world) (f : efunc) (args : list src) (rds : list Z) (m : mem) : Prop := mk_call_ok {
  co_alen : length args = length (fn_args f);
  co_rlen : length rds = length (fn_rets f);
  co_vars : forall v, In v (vargs args) ->
    In v (W_vars w) /\ ordinary m v /\ ~ In v (fn_rets f) /\
    forall d, In d (fn_args f) -> idx (dst_epd d) <> idx (vc v FVal);
  co_rds : forall d, In d rds -> valcell w d;
  co_rsep : ForallOrdPairs (fun x y => idx (snd x) <> idx (snd y) /\ idx (snd x) <> idx (vc (fst y) FVal))
              (combine (fn_rets f) rds) }.

(* The body of f: from its first trigger to its last, with the given relation
   between the memories, leaving the return address and the destinations of the
   results alone. *)
Definition body_ok (w : world) (f : efunc) (Pre : mem -> Prop) (Post : mem -> mem -> Prop) : Prop :=
  forall m1, Pre m1 -> rets_ready f m1 ->
  exists m2, runs w (lbl (fn_T f) 0, m1) (lbl (fn_T f) (fn_len f), m2) /\ Post m1 m2 /\ rets_ready f m2 /\ keeps w m1 m2 /\
    get m2 (fn_nptr f) = get m1 (fn_nptr f) /\
    forall r, In r (fn_rets f) -> get m2 (vc r FDest) = get m1 (vc r FDest).

(* cells changed by passing arguments *)
Definition enter_cells (f : efunc) (args : list src) (b : Z) : Prop :=
  scratch (vargs args) b \/ idx b = idx (fn_nptr f) \/
  (exists r, In r (fn_rets f) /\ idx b = idx (vc r FDest)) \/
  (exists d, In d (fn_args f) /\ idx b = idx (dst_epd d)).
(* cells changed by returning, apart from the results *)
Definition leave_cells (f : efunc) (b : Z) : Prop := exists r, In r (fn_rets f) /\ idx b = idx (vc r FNext).

(* A function that computes F: internal state Inv (kept by every call), cells S
   that it may change. *)
Definition computes (w : world) (f : efunc) (Inv : mem -> Prop) (S : Z -> Prop) (F : list Z -> list Z) : Prop :=
  body_ok w f (fun m => Inv m /\ forall v, In (DVar v) (fn_args f) -> ordinary m v)
    (fun m1 m2 => Inv m2 /\ (forall b, ~ S b -> get m2 b = get m1 b) /\
       map (fun r => get m2 (vc r FVal)) (fn_rets f) = F (map (fun d => get m1 (dst_epd d)) (fn_args f))).

(* memory at the start of the body, compared with the memory before the call *)
Definition entered (w : world) (f : efunc) (args : list src) (m m1 : mem) : Prop :=
  (forall d s, In (d, s) (combine (fn_args f) args) -> get m1 (dst_epd d) = sval m s) /\
  (forall b, ~ enter_cells f args b -> get m1 b = get m b) /\ keeps w m m1.
(* memory after the call, compared with the memory at the end of the body *)
Definition returned (f : efunc) (rds : list Z) (m2 m3 : mem) : Prop :=
  (forall r d, In (r, d) (combine (fn_rets f) rds) -> get m3 d = get m2 (vc r FVal)) /\
  (forall b, ~ leave_cells f b -> (forall d, In d rds -> idx d <> idx b) -> get m3 b = get m2 b).

(* cells that a call may change apart from the results *)
Definition call_tmp (f : efunc) (args : list src) (S : Z -> Prop) (b : Z) : Prop :=
  enter_cells f args b \/ leave_cells f b \/ S b.

(* the private state of a function lives in these cells *)
Definition private (Inv : mem -> Prop) (cells : list Z) : Prop :=
  forall m m', (forall c, In c cells -> get m' c = get m c) -> Inv m -> Inv m'.

(* ---------- several functions called one after another ---------- *)
(* a function with what it computes and the cells its private state lives in *)
Record fdesc := mkfd { fd_f : efunc; fd_inv : mem -> Prop; fd_cells : list Z; fd_S : Z -> Prop; fd_F : list Z -> list Z }.
Definition fd_ok (w : world) (d : fdesc) : Prop :=
  fn_wf w (fd_f d) /\ computes w (fd_f d) (fd_inv d) (fd_S d) (fd_F d) /\ private (fd_inv d) (fd_cells d).
Definition fd_ready (d : fdesc) (m : mem) : Prop :=
  fd_inv d m /\ rets_ready (fd_f d) m /\ forall v, In (DVar v) (fn_args (fd_f d)) -> ordinary m v.
(* function, arguments, cells for the results *)
Definition call := (fdesc * list src * list Z)%type.
(* cells between calls of d that must not change *)
Definition fd_state (d : fdesc) : list Z :=
  fd_cells d ++ flat_map (fun r => [vc r FMask; vc r FMod]) (fn_rets (fd_f d)).
(* this call leaves the state of d alone *)
Definition spares (c : call) (d : fdesc) : Prop :=
  let '(e, args, rds) := c in
  (forall x, In x (fd_cells d) -> ~ enter_cells (fd_f e) args x /\ ~ leave_cells (fd_f e) x /\ forall y, In y rds -> idx y <> idx x) /\
  (d = e \/ forall x, In x (fd_state d) -> ~ call_tmp (fd_f e) args (fd_S e) x /\ forall y, In y rds -> idx y <> idx x).
(* each call changes the memory as its function says *)
Inductive calls_effect : list call -> mem -> mem -> Prop :=
| ce_nil m : calls_effect [] m m
| ce_cons d args rds cs m m1 m2 :
    changes (call_tmp (fd_f d) args (fd_S d)) m m1 (combine rds (fd_F d (map (sval m) args))) ->
    calls_effect cs m1 m2 -> calls_effect ((d, args, rds) :: cs) m m2.
