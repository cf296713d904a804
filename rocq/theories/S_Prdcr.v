(** What a producer should do. *)
From Verif Require Export M_Prdcr.

(** Something holds at each step of a run *)
Fixpoint along (k : kind) (Q : prdcr -> step -> Prop) (l : list step) (p : prdcr) : Prop :=
  match l with
  | [] => True
  | s :: l => Q p s /\ match do k s p with Ok _ p => along k Q l p | Crash => True end
  end.
Definition reachable (k : kind) (p : prdcr) : Prop := exists l, run k l new = Some p.
(** Connections that are being made or exist *)
Definition is_live (e : ep) : bool := match e with EConnecting | EUp => true | _ => false end.
Definition live (p : prdcr) : nat := length (filter is_live (eps p)).
(** The attempts to connect of an active producer so far *)
Definition attempts (p : prdcr) : nat := length (eps p).
(** Whether the task will call its function again without being started *)
Definition will_retry (p : prdcr) : Prop :=
  tk p = TStarted \/ (tk p = TRunning false) \/ (pc p = PCalled).
