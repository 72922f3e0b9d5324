(** Statistics and stopwatch: src/utils/statistics.cpp ("st") and
    src/utils/stop-watch.cpp ("sw").  Numbers are exact; the sample counter does not
    overflow; what report prints is not modelled. *)
From Coq Require Import String List Arith Bool ZArith.
From Verif Require Import Scalar Outcome.
Import ListNotations.
Open Scope string_scope.
Open Scope list_scope.
Open Scope nat_scope.

Section RE.
Context {K : num}.
(** std::map<string, T>. *)
Definition smap (T : Type) := string -> option T.
Definition sput {T} (m : smap T) (n : string) (x : T) : smap T := fun k => if String.eqb k n then Some x else m k.
(** for each record. *)
Definition seach {T} (f : T -> T) (m : smap T) : smap T := fun k => option_map f (m k).

(** * Statistics *)
(** QuantityData (statistics.hpp:104-121). *)
Record qdata := mkQ { q_total : K; q_min : K; q_max : K; q_last : K; q_stops : nat }.
Definition q_zero : qdata := mkQ n0 n0 n0 n0 0.
Record stat := mkStat { st_active : bool; st_recs : smap qdata }.
Definition stat_new : stat := mkStat true (fun _ => None).       (* st:17-19 *)
(** st:35-45. *)
Definition q_store (d : qdata) (v : K) : qdata :=
  mkQ (q_total d + v)%num (if (v <=? q_min d)%num || (q_min d =? n0)%num then v else q_min d)
      (if (q_max d <=? v)%num then v else q_max d) v (S (q_stops d)).
Inductive stop_ := SStore (n : string) (v : K) | SReset (n : string) | SResetAll | SOn | SOff.
(** store st:27-46, reset_all st:48-56, reset st:69-83, turn_on st:85-88, turn_off st:90-93. *)
Definition stat_step (s : stat) (o : stop_) : outcome stat unit :=
  match o with
  | SOn => Ret (mkStat true (st_recs s)) tt
  | SOff => Ret (mkStat false (st_recs s)) tt
  | SStore n v =>
      if st_active s then
        let d := match st_recs s n with Some d => d | None => q_zero end in
        Ret (mkStat true (sput (st_recs s) n (q_store d v))) tt
      else Ret s tt
  | SReset n =>
      if st_active s then
        match st_recs s n with Some _ => Ret (mkStat true (sput (st_recs s) n q_zero)) tt | None => Exc s end
      else Ret s tt
  | SResetAll => if st_active s then Ret (mkStat true (seach (fun _ => q_zero) (st_recs s))) tt else Ret s tt
  end.
(** get_total .. get_last st:124-172: an exception when there is no record. *)
Definition stat_get (s : stat) (n : string) : option qdata := st_recs s n.
Definition q_average (d : qdata) : K := (q_total d / nofQ (QArith_base.inject_Z (Z.of_nat (q_stops d))))%num.

(** * Stopwatch *)
Inductive wmode := NONE | CPU_TIME | REAL_TIME.
(** CLOCKS_PER_SEC. *)
Variable cps : K.
(** PerformanceData (stop-watch.hpp:217-247). *)
Record pdata := mkPd { p_start : K; p_total : K; p_min : K; p_max : K; p_last : K; p_paused : bool; p_stops : nat }.
Definition p_zero : pdata := mkPd n0 n0 n0 n0 n0 false 0.
Record watch := mkW { w_active : bool; w_mode : wmode; w_recs : smap pdata }.
Definition watch_new (m : wmode) : watch := mkW true m (fun _ => None).     (* sw:48-50 *)
(** The clocks when a call is made: [t] time of day in seconds, [k] clock(). *)
Record clk := mkClk { c_t : K; c_k : K }.
(** take_time sw:60-100: throws in mode NONE. *)
Definition take_time (m : wmode) (c : clk) : option K :=
  match m with NONE => None | CPU_TIME => Some (c_k c) | REAL_TIME => Some (c_t c) end.
Definition in_seconds (m : wmode) (x : K) : K := match m with CPU_TIME => (x / cps)%num | _ => x end.
Inductive wop := WStart (n : string) (c : clk) | WStop (n : string) (c : clk) | WPause (n : string) (c : clk)
| WReset (n : string) | WResetAll | WOn | WOff | WMode (m : wmode).
(** start sw:102-118 (the record is inserted before take_time may throw). *)
Definition watch_start (s : watch) (n : string) (c : clk) : outcome watch unit :=
  let d := match w_recs s n with Some d => d | None => p_zero end in
  match take_time (w_mode s) c with
  | None => Exc (mkW (w_active s) (w_mode s) (sput (w_recs s) n d))
  | Some x => Ret (mkW (w_active s) (w_mode s) (sput (w_recs s) n (mkPd x (p_total d) (p_min d) (p_max d) (p_last d) false (p_stops d)))) tt
  end.
(** stop sw:120-149. *)
Definition p_lap (d : pdata) (lapse : K) : pdata :=
  mkPd (p_start d) (p_total d + lapse)%num (if (lapse <=? p_min d)%num || (p_min d =? n0)%num then lapse else p_min d)
       (if (p_max d <=? lapse)%num then lapse else p_max d) lapse (p_paused d) (S (p_stops d)).
Definition watch_stop (s : watch) (n : string) (c : clk) : outcome watch unit :=
  match take_time (w_mode s) c, w_recs s n with
  | Some x, Some d =>
      if (p_start d =? n0)%num then Ret s tt
      else Ret (mkW (w_active s) (w_mode s) (sput (w_recs s) n (p_lap d (in_seconds (w_mode s) (x - p_start d)%num)))) tt
  | _, _ => Exc s
  end.
(** pause sw:151-170: always clock(), never scaled, the start is kept. *)
Definition watch_pause (s : watch) (n : string) (c : clk) : outcome watch unit :=
  match w_recs s n with
  | Some d =>
      if (p_start d =? n0)%num then Ret s tt
      else let lapse := (c_k c - p_start d)%num in
           Ret (mkW (w_active s) (w_mode s) (sput (w_recs s) n (mkPd (p_start d) (p_total d + lapse)%num (p_min d) (p_max d) (p_last d + lapse)%num (p_paused d) (p_stops d)))) tt
  | None => Exc s
  end.
(** set_mode sw:54, reset_all sw:172-180, reset sw:206-222, turn_on, turn_off sw:224-232. *)
Definition watch_step (s : watch) (o : wop) : outcome watch unit :=
  let skip (r : outcome watch unit) := if w_active s then r else Ret s tt in
  match o with
  | WStart n c => skip (watch_start s n c)
  | WStop n c => skip (watch_stop s n c)
  | WPause n c => skip (watch_pause s n c)
  | WReset n => skip (match w_recs s n with Some _ => Ret (mkW (w_active s) (w_mode s) (sput (w_recs s) n p_zero)) tt | None => Exc s end)
  | WResetAll => skip (Ret (mkW (w_active s) (w_mode s) (seach (fun _ => p_zero) (w_recs s))) tt)
  | WOn => Ret (mkW true (w_mode s) (w_recs s)) tt
  | WOff => Ret (mkW false (w_mode s) (w_recs s)) tt
  | WMode m => Ret (mkW (w_active s) m (w_recs s)) tt
  end.
End RE.
Arguments qdata : clear implicits.
Arguments stat : clear implicits.
Arguments stop_ : clear implicits.
Arguments pdata : clear implicits.
Arguments watch : clear implicits.
Arguments clk : clear implicits.
Arguments wop : clear implicits.
