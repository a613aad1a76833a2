(** The wrappers of LAPACK, /repo/lube/clapack.cpp 235-293 and c++lapack.h 18-22.  [F] is float or double;
    the routines of the library are arbitrary functions. *)
From Coq Require Import ZArith Bool List.
Import ListNotations.

Section Lapack.
Variable F : Type.

(** The arguments of sgeev_ and dgeev_, clapack.cpp 264-271 and 283-290: JOBVL and JOBVR ([true]: 'V'), N,
    A, LDA, VL, LDVL, VR, LDVR ([None]: a null pointer), LWORK and the size of WORK (262-263).  WR, WI and
    INFO are only written. *)
Record geev_in := { jobvl : bool; jobvr : bool; gn : nat; ga : list F; lda : nat;
  gvl : option (list F); ldvl : nat; gvr : option (list F); ldvr : nat; lwork : nat; work : nat }.
(** What they leave: A, WR, WI, VL, VR, INFO. *)
Record geev_out := { oa : list F; owr : list F; owi : list F; ovl : option (list F); ovr : option (list F); oinfo : Z }.
(** What the caller of [geev] has then: [a], [wr], [wi], [vl], [vr] and the number returned. *)
Record eigen := { e_a : list F; e_wr : list F; e_wi : list F; e_vl : option (list F); e_vr : option (list F); e_info : Z }.

Definition given {X} (p : option X) : bool := match p with Some _ => true | None => false end.
(** [geev], clapack.cpp 256-273 and 275-292: [vr] is passed as VL and [vl] as VR. *)
Definition geev (geev_ : geev_in -> geev_out) (n : nat) (a : list F) (vl vr : option (list F)) : eigen :=
  let l := Nat.max 1 (n * 4) in
  let o := geev_ {| jobvl := given vr; jobvr := given vl; gn := n; ga := a; lda := n;
                    gvl := vr; ldvl := n; gvr := vl; ldvr := n; lwork := l; work := l |} in
  {| e_a := oa o; e_wr := owr o; e_wi := owi o; e_vl := ovr o; e_vr := ovl o; e_info := oinfo o |}.

(** The arguments of sgees_, clapack.cpp 246-252: JOBVS, SORT ([true]: 'S'), N, A, LDA, VS, LDVS, LWORK and
    the size of WORK (244-245).  SELECT and BWORK are null. *)
Record gees_in := { jobvs : bool; sort : bool; sn : nat; sa : list F; slda : nat; svs : option (list F); ldvs : nat; slwork : nat; swork : nat }.
Record gees_out := { osa : list F; oswr : list F; oswi : list F; ovs : option (list F); osinfo : Z }.
(** What the caller of [gees] has then. *)
Record schur := { s_a : list F; s_wr : list F; s_wi : list F; s_vs : option (list F); s_info : Z }.
(** [gees], clapack.cpp 237-254. *)
Definition gees (gees_ : gees_in -> gees_out) (n : nat) (a : list F) (vs : option (list F)) : schur :=
  let l := Nat.max 1 (n * 3) in
  let o := gees_ {| jobvs := given vs; sort := false; sn := n; sa := a; slda := n; svs := vs; ldvs := n; slwork := l; swork := l |} in
  {| s_a := osa o; s_wr := oswr o; s_wi := oswi o; s_vs := ovs o; s_info := osinfo o |}.
End Lapack.
