(** Independent specification (C84): what a Header says about the bytes before the DEFLATE data. *)
From Verif Require Import Base SpecFormats SpecSession SpecReader MCommon.

(** Nothing but the window size and the level is known. *)
Definition blank (h : header) : Prop :=
  h_name h = [] /\ h_comment h = [] /\ h_mtime h = None /\ h_datatype h = UnknownData /\ h_os h = 0%N /\ h_extra h = [].
(** 1 fastest, 2 fast, -1 default, 9 best *)
Definition zlib_class (flevel : N) : Z :=
  if (flevel =? 0)%N then 1%Z else if (flevel =? 1)%N then 2%Z else if (flevel =? 2)%N then (-1)%Z else 9%Z.
Definition opt_bytes (o : option (list N)) : list N := match o with Some s => s | None => [] end.
Definition HeadSays (f : sformat) (hd : list N) (h : header) : Prop :=
  match f with
  | SRaw => blank h /\ h_wbits h = 0%N /\ h_clevel h = (-1)%Z
  | SZlib => blank h /\ exists cmf flg t, hd = cmf :: flg :: t /\ h_wbits h = (cmf / 16 + 8)%N /\ h_clevel h = zlib_class (flg / 64)
  | SGzip => exists g, gzip_fields_ok g /\ hd = gzip_header g /\
      h_name h = opt_bytes (gz_name g) /\ h_comment h = opt_bytes (gz_comment g) /\
      h_mtime h = (if (gz_mtime g =? 0)%N then None else Some (Z.of_N (gz_mtime g))) /\
      h_datatype h = (if gz_text g then TextData else BinaryData) /\
      h_os h = (if (gz_os g <=? 13)%N then gz_os g + 1 else 0)%N /\                       (* OSTypeFAT = 1 stands for 0, ... *)
      h_wbits h = 0%N /\
      h_clevel h = (if (gz_xfl g =? 2)%N then 9 else if (gz_xfl g =? 4)%N then 1 else -1)%Z /\
      (* the subfields; up to 3 bytes after the last one are ignored *)
      exists tail, opt_bytes (gz_extra g) = extra_enc (h_extra h) ++ tail /\ length tail < 4
  end.
(** A zlib Writer with window [wbits], strategy [s] and level [l]. *)
Definition ZlibBack (wbits : N) (fast : bool) (l : Z) (h : header) : Prop :=
  blank h /\ h_wbits h = wbits /\
  h_clevel h = (if fast || (l <? 2)%Z then 1 else if (l <? 6)%Z then 2 else if (l =? 6)%Z then -1 else 9)%Z.
