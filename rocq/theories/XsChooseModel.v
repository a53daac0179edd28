(** Model of the choice of cross-section data files (src/xsections.cpp 169-197, 269-378, 471-527, 698-725, 759-795, 811-860, 911-925;
    src/resources.cpp; src/body.cpp 302, 448, 554, 682). Text files are the rows of numbers in them, without empty lines; permissions
    other than for writing are left out, as are error texts, digits lost by printing, and energies that are not positive. *)
From Coq Require Import List Arith Reals Bool String ZArith.
From Verif Require Import Err GridModel AkimaModel BicubicModel TauModel XsModel XsFileModel.
Import ListNotations.
Local Open Scope R_scope.

(** ** Files *)
(** An HDF5 file of the current class: the coordinates, the tables common to all flavours, the groups of the flavours. *)
Record h5any := HA { ha_grid : option (list R * list R); ha_common : option h5flav; ha_groups : option ((flavor -> nat) * (nat -> h5flav)) }.
Inductive content := Text (rows : list (list R)) | H5 (F : h5any) | H5v1 (T : v1) | Dir.
Definition fs := string -> option content.
(** tools.cpp 38-42: the stream opens; on POSIX systems it does for directories too. *)
Definition fexists (f : fs) (p : string) : bool := match f p with Some _ => true | None => false end.
(** isHDF, 169-179: the first eight bytes; nothing can be read from a directory. *)
Definition is_hdf (f : fs) (p : string) : bool := match f p with Some (H5 _) | Some (H5v1 _) => true | _ => false end.
(** quickread, tools.cpp 54-75: rows of different lengths are refused; a directory reads as no rows. HDF5 files read as text
    are not modelled. *)
Definition quickread_file (f : fs) (p : string) : outcome (list (list R)) :=
  match f p with
  | None => Throw RuntimeError
  | Some Dir => Ok []
  | Some (Text rows) => if forallb (fun r => Nat.eqb (List.length r) (List.length (hd [] rows))) rows then Ok rows else Throw RuntimeError
  | Some _ => UB
  end.

(** ** Where data is looked for *)
(** getResourcePath, resources.cpp 8-15; getInstallBit is written by configure 660-682. *)
Definition resource_path (env : option string) (installed : bool) (inst src : string) : string :=
  match env with Some d => d | None => if installed then inst else src end.
(** xsections.cpp 190, 760, 917-918; body.cpp 302, 448, 554, 682 *)
Definition dis_default (r : string) : string := (r ++ "/xsections/csms_square.h5")%string.
Definition v1_default (r : string) : string := (r ++ "/xsections/csms.h5")%string.
Definition proton_default (r : string) : string := ((r ++ "/xsections/") ++ "csms_proton.h5")%string.
Definition neutron_default (r : string) : string := ((r ++ "/xsections/") ++ "csms_neutron.h5")%string.
Definition earth_default (r : string) : string := (r ++ "/astro/EARTH_MODEL_PREM.dat")%string.
Definition sun_default (r : string) : string := (r ++ "/astro/bs05_agsop.dat")%string.

(** ** Text, current class *)
Definition tot_name (c : chan) : string :=
  match c with CCnu => "nu_sigma_CC.dat" | NCnu => "nu_sigma_NC.dat" | CCnubar => "nubar_sigma_CC.dat" | NCnubar => "nubar_sigma_NC.dat" end%string.
Definition diff_name (c : chan) : string :=
  match c with CCnu => "nu_dsde_CC.dat" | NCnu => "nu_dsde_NC.dat" | CCnubar => "nubar_dsde_CC.dat" | NCnubar => "nubar_dsde_NC.dat" end%string.
Definition flav_name (f : flavor) : string := match f with electron => "electron" | muon => "muon" | _ => "tau" end%string.
(** flavor_prefix, 370 *)
Definition flav_prefix (p : string) (f : flavor) : string := (p ++ flav_name f ++ "_")%string.
(** expectedFilesExist, 308-313 *)
Definition complete (f : fs) (p : string) : bool :=
  forallb (fun n => fexists f (p ++ n)%string)
    [tot_name CCnu; tot_name NCnu; tot_name CCnubar; tot_name NCnubar; diff_name CCnu; diff_name NCnu; diff_name CCnubar; diff_name NCnubar].

Section Gev.
Variable GeV : R.
Definition pair_of (r : list R) : R * R := (nth 0 r 0, nth 1 r 0).
Definition triple_of (r : list R) : row3 := (nth 0 r 0, nth 1 r 0, nth 2 r 0).
(** 110-125 and 127-167 with the file; the number of columns is checked at 112 and 129. *)
Definition text1 (f : fs) (p : string) : outcome (total_tab * R * R) :=
  obind (quickread_file f p) (fun rows =>
  if Nat.eqb (List.length (hd [] rows)) 2 then read1D GeV (map pair_of rows) else Throw RuntimeError).
Definition text2 (f : fs) (p : string) : outcome (diff_tab * R * R) :=
  obind (quickread_file f p) (fun rows =>
  if Nat.eqb (List.length (hd [] rows)) 3 then read2D GeV (map triple_of rows) else Throw RuntimeError).
(** The range of the object; it begins as not-a-number, 319 and 330. *)
Definition erange := option (R * R).
Definition settle (er : erange) (lo hi : R) : R * R :=
  match er with
  | Some (a, b) => if andb (rlt 0 a) (rlt 0 b) then (a, b) else (lo, hi)
  | None => (lo, hi)
  end.
Definition checked {T : Type} (er : R * R) (o : outcome (T * R * R)) : outcome T :=
  obind o (fun q => let '(t, lo, hi) := q in
  if Req_EM_T lo (fst er) then if Req_EM_T hi (snd er) then Ok t else Throw RuntimeError else Throw RuntimeError).
(** readFlavorText, 269-305 *)
Definition flavor_text (f : fs) (p : string) (er : erange) : outcome (fdata * (R * R)) :=
  obind (text1 f (p ++ tot_name CCnu)%string) (fun q => let '(t1, lo, hi) := q in
  let e := settle er lo hi in
  obind (checked e (text1 f (p ++ tot_name NCnu)%string)) (fun t2 =>
  obind (checked e (text1 f (p ++ tot_name CCnubar)%string)) (fun t3 =>
  obind (checked e (text1 f (p ++ tot_name NCnubar)%string)) (fun t4 =>
  obind (checked e (text2 f (p ++ diff_name CCnu)%string)) (fun d1 =>
  obind (checked e (text2 f (p ++ diff_name NCnu)%string)) (fun d2 =>
  obind (checked e (text2 f (p ++ diff_name CCnubar)%string)) (fun d3 =>
  obind (checked e (text2 f (p ++ diff_name NCnubar)%string)) (fun d4 =>
  Ok (FD (fun c => match c with CCnu => t1 | NCnu => t2 | CCnubar => t3 | NCnubar => t4 end)
         (fun c => match c with CCnu => d1 | NCnu => d2 | CCnubar => d3 | NCnubar => d4 end), e))))))))).
(** ReadText, 307-335 *)
Definition read_text (f : fs) (p : string) : outcome xsp :=
  if complete f p then
    obind (flavor_text f p None) (fun r => Ok (XSP (fst (snd r)) (snd (snd r)) (fun _ => 0%nat) (fun _ => fst r)))
  else if andb (andb (complete f (flav_prefix p electron)) (complete f (flav_prefix p muon))) (complete f (flav_prefix p tau)) then
    obind (flavor_text f (flav_prefix p electron) None) (fun a =>
    obind (flavor_text f (flav_prefix p muon) (Some (snd a))) (fun b =>
    obind (flavor_text f (flav_prefix p tau) (Some (snd b))) (fun c =>
    Ok (XSP (fst (snd c)) (snd (snd c)) (fun g => match g with electron => 0%nat | muon => 1%nat | _ => 2%nat end)
            (fun k => match k with O => fst a | 1%nat => fst b | _ => fst c end)))))
  else Throw RuntimeError.
(** ReadHDF, 471-527: common tables are preferred to groups. *)
Definition read_h5 (F : h5any) : outcome xsp :=
  match ha_grid F with
  | None => Throw RuntimeError
  | Some (en, zs) =>
      match ha_common F, ha_groups F with
      | Some g, _ =>
          match en with
          | [] => UB
          | e0 :: _ => obind (read_flav en zs g) (fun d => Ok (XSP (pow10 e0) (pow10 (last en e0)) (fun _ => 0%nat) (fun _ => d)))
          end
      | None, Some (link, obj) => read_hdf (HX en zs link obj)
      | None, None => match en with [] => UB | _ => Throw RuntimeError end
      end
  end.
(** The constructor, 192-197. A file of the other class has no coordinates. *)
Definition construct (f : fs) (p : string) : outcome xsp :=
  if is_hdf f p then match f p with Some (H5 F) => read_h5 F | _ => Throw RuntimeError end
  else read_text f p.

(** ** Writing *)
Variable writable : string -> bool.
Definition put (f : fs) (p : string) (c : content) : fs := fun q => if String.eqb q p then Some c else f q.
Definition put_if (f : fs) (p : string) (c : content) : outcome fs := if writable p then Ok (put f p c) else Throw RuntimeError.
Definition cols2 (l : list (R * R)) : content := Text (map (fun p => [fst p; snd p]) l).
Definition cols3 (l : list row3) : content := Text (map (fun r => [fst (fst r); snd (fst r); snd r]) l).
(** write1D and write2D with the file, 338-360 *)
Definition wr1 (d : fdata) (p : string) (f : fs) (c : chan) : outcome fs := put_if f (p ++ tot_name c)%string (cols2 (write1D GeV (f_tot d c))).
Definition wr2 (d : fdata) (p : string) (f : fs) (c : chan) : outcome fs :=
  if writable (p ++ diff_name c)%string then obind (write2D GeV (f_diff d c)) (fun rows => Ok (put f (p ++ diff_name c)%string (cols3 rows))) else Throw RuntimeError.
(** 371-379 *)
Definition write_flavor_text (d : fdata) (p : string) (f : fs) : outcome fs :=
  obind (wr1 d p f CCnu) (fun f => obind (wr1 d p f NCnu) (fun f => obind (wr1 d p f CCnubar) (fun f => obind (wr1 d p f NCnubar) (fun f =>
  obind (wr2 d p f CCnu) (fun f => obind (wr2 d p f NCnu) (fun f => obind (wr2 d p f CCnubar) (fun f => wr2 d p f NCnubar))))))).
(** WriteText, 337-379; [ord] is the order in which the unordered map lists the three flavours. *)
Fixpoint write_text (ord : list flavor) (X : xsp) (p : string) (f : fs) : outcome fs :=
  match ord with
  | [] => Ok f
  | g :: r => obind (write_flavor_text (p_data X g) (flav_prefix p g) f) (fun f => write_text r X p f)
  end.

(** ** V1 *)
Definition v1_names : list string := ["dsde_CC.dat"; "dsde_NC.dat"; "sigma_CC.dat"; "sigma_NC.dat"]%string.
(** ReadText, 698-725: the files, then the tables. *)
Definition v1_text (f : fs) (p : string) : outcome v1 :=
  if forallb (fun n => fexists f (p ++ n)%string) v1_names then
    obind (quickread_file f (p ++ "dsde_CC.dat")%string) (fun dCC => obind (quickread_file f (p ++ "dsde_NC.dat")%string) (fun dNC =>
    obind (quickread_file f (p ++ "sigma_CC.dat")%string) (fun sCC => obind (quickread_file f (p ++ "sigma_NC.dat")%string) (fun sNC =>
    v1_read_text GeV sCC sNC dCC dNC))))
  else Throw RuntimeError.
(** The constructor, 763-795: anything that opens is taken for an HDF5 file; without the attribute Emin it is refused (tools.h 398-418). *)
Definition v1_construct (f : fs) (p : string) : outcome v1 :=
  if fexists f p then match f p with Some (H5v1 T) => v1_hdf GeV T | _ => Throw RuntimeError end
  else v1_text f p.
(** WriteText, 811-860: a file that cannot be opened is not noticed. *)
Definition put_try (f : fs) (p : string) (c : content) : fs := if writable p then put f p c else f.
Definition v1_write (T : v1) (p : string) (f : fs) : fs :=
  let f := put_try f (p ++ "sigma_CC.dat")%string (Text (v1_write_sigma T true)) in
  let f := put_try f (p ++ "sigma_NC.dat")%string (Text (v1_write_sigma T false)) in
  let f := put_try f (p ++ "dsde_CC.dat")%string (Text (v1_write_dsde T true)) in
  put_try f (p ++ "dsde_NC.dat")%string (Text (v1_write_dsde T false)).
End Gev.

(** ** The default library *)
Inductive anyxs := DisXs (X : xsp) | Glashow.
(** loadDefaultCrossSections, 911-925 *)
Definition default_library (GeV : R) (f : fs) (r : string) : outcome (@library anyxs) :=
  obind (construct GeV f (proton_default r)) (fun p =>
  let l := add_target [] 2212%Z (Some (DisXs p)) in
  obind (fst l) (fun _ =>
  obind (construct GeV f (neutron_default r)) (fun n =>
  let l := add_target (snd l) 2112%Z (Some (DisXs n)) in
  obind (fst l) (fun _ =>
  let l := add_target (snd l) 11%Z (Some Glashow) in
  obind (fst l) (fun _ => Ok (snd l)))))).
