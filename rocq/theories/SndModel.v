(** Model of the reading and writing of sound files, sndfile.cpp.

    A sound file is its rate, its number of channels and its samples, channel by channel within
    frame by frame.  Of libsndfile: sf_readf_float takes a number of frames and reads as many as
    there are left, sf_writef_float takes a number of frames and reads that number times the
    number of channels from memory; both return the number of frames. *)
From Coq Require Import ZArith Bool List String.
From Verif Require Import Base GeoModel.
Import ListNotations.
Local Open Scope Z_scope.
Local Open Scope list_scope.

Section Snd.
Variable A : Type.
Record sound := mksound { s_rate : Z; s_channels : Z; s_samples : list A }.
Definition s_frames (f : sound) : Z := Z.of_nat (List.length (s_samples f)) / s_channels f.

(** libsndfile's sf_readf_float at the start of a file: at most [frames] frames into array [a]. *)
Definition sf_readf (f : sound) (m : mem A) (a : nat) (frames : Z) : outcome (mem A * Z) :=
  let n := Z.min frames (s_frames f) in
  let* m := wr_row A m a 0 (firstn (Z.to_nat (n * s_channels f)) (s_samples f)) in
  Ok (m, n).
(** /repo/lube/sndfile.cpp 40-62: [sndfile::read].  [z] is the content of fresh cells; the result
    has the rate that goes into the attributes.  The product of frames and channels is taken to
    fit an int. *)
Definition snd_read (z : A) (fuel : nat) (file : option sound) (m : mem A) : outcome (Z * (mem A * opd)) :=
  match file with
  | None => Throw "sndfile::read: Failed to open file"
  | Some f =>
    let* size := imul (s_frames f) (s_channels f) in
    let data := mkop (List.length m) None in
    let m := m ++ [repeat z (Z.to_nat size)] in
    let* (m, nGot) := sf_readf f m (o_arr data) size in
    if negb (nGot =? size) then Throw "sndfile::read: Size fuckup" else
    if negb (s_channels f =? 1) then
      let* v := mkview A m data [s_frames f; s_channels f] 0 in
      let* r := transpose_inplace A fuel m v in
      Ok (s_rate f, r)
    else Ok (s_rate f, (m, data))
  end.

(** libsndfile's sf_writef_float; [q] is what storing in 16 bits makes of a sample. *)
Definition sf_writef (q : A -> A) (rate channels : Z) (m : mem A) (a : nat) (p frames : Z) : outcome (sound * Z) :=
  let* l := rd_row A m a p (Z.to_nat (frames * channels)) in
  Ok (mksound rate channels (map q l), frames).
(** /repo/lube/sndfile.cpp 64-87: [sndfile::write], for an array of floats and the int [rate] in
    the attributes, when the file can be opened. *)
Definition snd_write (z : A) (fuel : nat) (q : A -> A) (rate : Z) (m : mem A) (i : opd) : outcome sound :=
  let* channels := if 1 <? dim i then shape A m i 0 else Ok 1 in
  let* (f, n) :=
    if 1 <? dim i then
      let* (m, tr) := transpose_new A z fuel m i in
      let* size := size A m tr in
      sf_writef q rate channels m (o_arr tr) (offset tr) size
    else
      let* size := size A m i in
      sf_writef q rate channels m (o_arr i) (offset i) size in
  let* size := size A m i in
  if negb (size =? n) then Throw "sndfile::write: Size fuckup" else Ok f.
End Snd.
