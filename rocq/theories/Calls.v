(** * Calls: what the download task calls on its source.

    The methods of [SourceStream] (source/mod.rs:40-90) that one step of the task calls.
    Cancellations of a pending [next] are not calls. *)

From Coq Require Import List.
From Verif Require Import Base ListFacts Storage System Process.
Import ListNotations.

(** What [next] yields within the retry timeout (source/mod.rs:203-214, 372-378). *)
Inductive next_result := NChunk (bs : list byte) | NEnd | NError | NNothing.

(** The first argument of [on_finish] (source/mod.rs:175-186). *)
Inductive finish_arg := FOk | FInterrupted | FError.

Inductive call :=
| CNext (r : next_result)
| CSeekRange (start : nat) (stop : option nat)
| CReconnect (pos : nat)
| COnFinish (r : finish_arg) (o : outcome).

(** [download_inner] polls the source (source/mod.rs:203-222) and reconnects when nothing
    came (272-279). *)
Definition polled (c : cfg) (s : gstate) (l : label) : list call :=
  match l with
  | LDChunk k => [CNext (NChunk (slice (c_content c) (g_scur s) k))]
  | LDEof => [CNext NEnd]
  | LDErr => [CNext NError]
  | LDTimeout _ => [CNext NNothing; CReconnect (st_wpos (g_store s))]
  | _ => []
  end.

(** [seek] (source/mod.rs:467-471) calls [seek_range]. *)
Definition requested (s s' : gstate) : list call :=
  match g_dpc s, g_dpc s' with
  | DSeeking _ _, _ => []
  | _, DSeeking a b => [CSeekRange a b]
  | _, _ => []
  end.

(** [download] (source/mod.rs:172-187) calls [on_finish] with the result of
    [download_inner]: [CancelledByUser] is returned only where the cancellation is observed
    (224-227). *)
Definition finished (s s' : gstate) (l : label) : list call :=
  match g_dpc s, g_dpc s' with
  | DOnFinish _, _ => []
  | _, DOnFinish b =>
      match l with
      | LDCancel => [COnFinish FInterrupted CancelledByUser]
      | _ => [COnFinish (if b then FOk else FError) Completed]
      end
  | _, _ => []
  end.

Definition calls_of (c : cfg) (s s' : gstate) (l : label) : list call :=
  polled c s l ++ requested s s' ++ finished s s' l.

(** The calls made along a schedule, in order. *)
Fixpoint calls_run (c : cfg) (s : gstate) (ls : list label) : option (gstate * list call) :=
  match ls with
  | [] => Some (s, [])
  | l :: t =>
      match step c s l with
      | Some s' =>
          match calls_run c s' t with
          | Some (s2, k) => Some (s2, calls_of c s s' l ++ k)
          | None => None
          end
      | None => None
      end
  end.
