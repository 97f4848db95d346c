(** Running the model of change events: an executable version of [step], used for examples. *)
From Coq Require Import List Bool Arith NArith.
From Verif Require Import ChangeEv ChangeEvSpec ChangeEvProofs.
Import ListNotations.

Inductive label :=
| LPub (inf : info) (n : nat) | LOk | LTimeout | LClear | LDie (p : nat)
| LStart (p : nat) | LCall (p : nat) (r : result) | LLock (p : nat) | LFail (p : nat).

Section Run.
Variables (filt : info -> nat -> nat -> bool) (lf : bool).

Definition exec (l : label) (st : state) : option state :=
  match l with
  | LPub inf n =>
      if ev_eqb (f_ev (h_inf (st_shm st))) EvNone && is_listen (f_ev inf) && negb (existsb (info_eqb inf) (st_pub st)) &&
         (ev_eqb (f_ev inf) EvAbort || Nat.eqb n (count_addr filt inf 0 (st_procs st)))
      then Some (mkst (mkshm inf n) (st_procs st) (inf :: st_pub st) (st_log st)) else None
  | LOk =>
      match st_pub st with
      | inf :: pub =>
          if ev_eqb (f_ev (h_inf (st_shm st))) EvSuccess || ev_eqb (f_ev (h_inf (st_shm st))) EvFinished
          then Some (mkst (mkshm (mkinfo EvNone (f_rid (h_inf (st_shm st))) (f_prio (h_inf (st_shm st)))) (h_cnt (st_shm st))) (st_procs st) (st_pub st) (OOk inf :: st_log st)) else None
      | [] => None
      end
  | LTimeout =>
      if is_listen (f_ev (h_inf (st_shm st)))
      then Some (mkst (mkshm (mkinfo EvError (f_rid (h_inf (st_shm st))) (f_prio (h_inf (st_shm st)))) (h_cnt (st_shm st))) (st_procs st) (st_pub st) (st_log st)) else None
  | LClear => Some (mkst (mkshm (mkinfo EvNone (f_rid (h_inf (st_shm st))) (f_prio (h_inf (st_shm st)))) (h_cnt (st_shm st))) (st_procs st) (st_pub st) (st_log st))
  | LDie p =>
      match nth_error (st_procs st) p with
      | Some q => Some (mkst (st_shm st) (set_proc p (mkproc (p_subs q) Dead) (st_procs st)) (st_pub st) (st_log st))
      | None => None
      end
  | LStart p =>
      match nth_error (st_procs st) p with
      | Some q =>
          match p_pc q, find_new (st_shm st) (p_subs q) 0 with
          | Idle, Some i => Some (mkst (st_shm st) (set_proc p (mkproc (p_subs q) (Call i 0 ROk (h_inf (st_shm st)))) (st_procs st)) (st_pub st) (st_log st))
          | _, _ => None
          end
      | None => None
      end
  | LCall p r =>
      match nth_error (st_procs st) p with
      | Some q =>
          match p_pc q with
          | Call i valid ret inf =>
              if filt inf p i
              then Some (mkst (st_shm st) (set_proc p (mkproc (p_subs q) (Called i valid r true inf)) (st_procs st)) (st_pub st) (OCall p i (f_ev inf) (f_rid inf) r :: st_log st))
              else Some (mkst (st_shm st) (set_proc p (mkproc (p_subs q) (Called i valid ret false inf)) (st_procs st)) (st_pub st) (st_log st))
          | _ => None
          end
      | None => None
      end
  | LLock p =>
      match nth_error (st_procs st) p with
      | Some q =>
          match p_pc q with
          | Called i valid ret fv inf =>
              if info_eqb inf (h_inf (st_shm st))
              then Some (mkst (st_shm st) (set_proc p (after_cb (st_shm st) (p_subs q) i valid ret fv inf) (st_procs st)) (st_pub st) (st_log st))
              else Some (mkst (st_shm st) (set_proc p (mkproc (p_subs q) Idle) (st_procs st)) (st_pub st)
                              (if self_abort (p_subs q) i ret fv inf then OSelf p i (f_rid inf) :: st_log st else st_log st))
          | Fin i valid ret fv err inf =>
              if info_eqb inf (h_inf (st_shm st))
              then Some (mkst (listen_write_event (st_shm st) valid err) (set_proc p (mkproc (p_subs q) Idle) (st_procs st)) (st_pub st) (st_log st))
              else Some (mkst (st_shm st) (set_proc p (mkproc (p_subs q) Idle) (st_procs st)) (st_pub st)
                              (if self_abort (p_subs q) i ret fv inf then OSelf p i (f_rid inf) :: st_log st else st_log st))
          | _ => None
          end
      | None => None
      end
  | LFail p =>
      match nth_error (st_procs st) p with
      | Some q => if lf && alive q then Some (mkst (st_shm st) (set_proc p (mkproc (p_subs q) Idle) (st_procs st)) (st_pub st) (st_log st)) else None
      | None => None
      end
  end.

Fixpoint run (ls : list label) (st : state) : option state :=
  match ls with
  | [] => Some st
  | l :: r => match exec l st with Some st' => run r st' | None => None end
  end.

Lemma exec_step : forall l st st', exec l st = Some st' -> step filt lf st st'.
Proof.
  intros l st st' E. destruct l as [inf n| | | |p|p|p r|p|p]; cbn [exec] in E.
  - destruct (ev_eqb (f_ev (h_inf (st_shm st))) EvNone && is_listen (f_ev inf) && negb (existsb (info_eqb inf) (st_pub st)) && (ev_eqb (f_ev inf) EvAbort || Nat.eqb n (count_addr filt inf 0 (st_procs st)))) eqn:C; [|discriminate]. injection E as <-.
    apply andb_true_iff in C. destruct C as (C & C4). apply andb_true_iff in C. destruct C as (C & C3). apply andb_true_iff in C. destruct C as (C1 & C2). apply ev_eqb_eq in C1. apply negb_true_iff in C3.
    apply S_publish; [exact C1|exact C2| |].
    + intros H. assert (existsb (info_eqb inf) (st_pub st) = true) by (apply existsb_exists; exists inf; split; [exact H|apply info_eqb_eq; reflexivity]). congruence.
    + intros N. apply orb_true_iff in C4. destruct C4 as [C4|C4]; [apply ev_eqb_eq in C4; contradiction|apply Nat.eqb_eq; exact C4].
  - destruct (st_pub st) as [|inf pub] eqn:P; [discriminate|]. destruct (ev_eqb (f_ev (h_inf (st_shm st))) EvSuccess || ev_eqb (f_ev (h_inf (st_shm st))) EvFinished) eqn:C; [|discriminate]. injection E as <-. rewrite <- P. apply S_ok with (pub := pub); [|exact P].
    apply orb_true_iff in C. destruct C as [C|C]; apply ev_eqb_eq in C; auto.
  - destruct (is_listen (f_ev (h_inf (st_shm st)))) eqn:C; [|discriminate]. injection E as <-. apply S_timeout. exact C.
  - injection E as <-. apply S_clear.
  - destruct (nth_error (st_procs st) p) as [q|] eqn:Hp; [|discriminate]. injection E as <-. apply S_die. exact Hp.
  - destruct (nth_error (st_procs st) p) as [q|] eqn:Hp; [|discriminate]. destruct (p_pc q) eqn:Hc; try discriminate. destruct (find_new (st_shm st) (p_subs q) 0) as [i|] eqn:Hf; [|discriminate]. injection E as <-. apply S_start; assumption.
  - destruct (nth_error (st_procs st) p) as [q|] eqn:Hp; [|discriminate]. destruct (p_pc q) as [|i v ret inf| | |] eqn:Hc; try discriminate. destruct (filt inf p i) eqn:Hf; injection E as <-; [apply S_call with (ret := ret); assumption|apply S_filtered; assumption].
  - destruct (nth_error (st_procs st) p) as [q|] eqn:Hp; [|discriminate]. destruct (p_pc q) as [| |i v ret fv inf|i v ret fv err inf|] eqn:Hc; try discriminate; destruct (info_eqb inf (h_inf (st_shm st))) eqn:Hf; injection E as <-.
    + apply S_relock; assumption.
    + apply S_changed with (valid := v); assumption.
    + apply S_write with (i := i) (ret := ret) (fv := fv) (inf := inf); assumption.
    + apply S_write_changed with (valid := v) (err := err); assumption.
  - destruct (nth_error (st_procs st) p) as [q|] eqn:Hp; [|discriminate]. destruct (lf && alive q) eqn:C; [|discriminate]. injection E as <-. apply andb_true_iff in C. apply S_fail; [apply C|exact Hp|apply C].
Qed.

Lemma run_reach : forall ls st0 st st', reach filt lf st0 st -> run ls st = Some st' -> reach filt lf st0 st'.
Proof.
  induction ls as [|l r IH]; cbn [run]; intros st0 st st' R E; [injection E as <-; exact R|].
  destruct (exec l st) as [st1|] eqn:E1; [|discriminate]. apply (IH st0 st1 st'); [|exact E]. apply R_step with (st := st); [exact R|apply (exec_step l); exact E1].
Qed.
End Run.
