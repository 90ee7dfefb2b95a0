(* The options command: lib/u_opt2.cc with the Get and Set of lib/ap_get.cc and include/ap.h. *)
Require Import String.
Require Import ZArith QArith Qabs List Ascii Bool.
Require Import Verif.Loops Verif.CS_Model Verif.Probes_Model.
Import ListNotations.
Local Open Scope string_scope.
Local Open Scope list_scope.

(* the value of an option; an enum is its number (include/u_opt.h:33-70, include/mode.h:29). A language
   is what the options take from it: case_insensitive() and units(); or there is none. *)
Inductive val := VB (b : bool) | VZ (z : Z) | VQ (q : Q) | VL (l : option (bool * units)).
(* the static members of OPT (include/u_opt.h:90-180), by name *)
Definition opts := string -> val.
Definition put (st : opts) (v : string) (x : val) : opts := fun k => if String.eqb k v then x else st k.
(* OPT::case_insensitive and OPT::units, which the scanner looks at *)
Definition ci_of (st : opts) : bool := match st "case_insensitive" with VB b => b | _ => false end.
Definition u_of (st : opts) : units := match st "units" with VZ 1 => uSPICE | _ => uSI end.
Definition unit_code (u : units) : Z := match u with uSI => 0 | uSPICE => 1 end.

(* what a line of lib/u_opt2.cc:63-184 does with the variable v: Flag: Get of a bool; Int: of an int;
   Oct: of an int with mOCTAL; Uint: of an unsigned; Real: of a double; Pos: with mPOSITIVE; Order: of
   trsteporder, with to_range(1,..,3); Level: Set; Choice: umatch followed by Sets; Lang: of language *)
Inductive act := Flag (v : string) | Int (v : string) | Oct (v : string) | Uint (v : string) | Real (v : string) | Pos (v : string)
  | Order (v : string) | Level (v : string) (z : Z) | Choice (v : string) (l : list (string * Z)) | Lang.
(* lib/u_opt2.cc:63-184 in order; method: 39-50; bNOERROR to bDANGER: include/io_error.h:32-38 *)
Definition table : list (string * act) :=
  [("acct", Flag "acct"); ("list", Flag "listing"); ("mod", Flag "mod"); ("page", Flag "page"); ("node", Flag "node"); ("opts", Flag "opts");
   ("gmin", Pos "gmin"); ("bypasstol", Pos "bypasstol"); ("loadtol", Pos "loadtol"); ("reltol", Pos "reltol"); ("abstol", Pos "abstol");
   ("vntol", Pos "vntol"); ("trtol", Pos "trtol"); ("chgtol", Pos "chgtol"); ("pivtol", Pos "pivtol"); ("pivrel", Pos "pivrel");
   ("numdgt", Int "numdgt"); ("tnom", Real "tnom_c"); ("cptime", Int "cptime"); ("limtim", Int "limtim"); ("limpts", Int "limpts");
   ("lvlcod", Int "lvlcod"); ("lvltim", Int "lvltim");
   ("method", Choice "method" [("euler", 1); ("eulero{nly}", 2); ("trap{ezoidal}", 3); ("trapo{nly}", 4); ("gear{2}", 5); ("gear2o{nly}", 6); ("t{rap}g{ear}", 7); ("t{rap}e{uler}", 8)]%Z);
   ("maxord", Int "maxord"); ("defl", Pos "defl"); ("defw", Pos "defw"); ("defad", Pos "defad"); ("defas", Pos "defas"); ("clobber", Flag "clobber");
   ("dampmax", Pos "dampmax"); ("dampmin", Pos "dampmin"); ("damps{trategy}", Oct "dampstrategy"); ("floor", Pos "floor"); ("vfloor", Pos "vfloor");
   ("roundofftol", Pos "roundofftol"); ("t{empamb}", Real "temp_c"); ("t{emperature}", Real "temp_c"); ("short", Pos "shortckt"); ("out{width}", Uint "outwidth");
   ("ydiv{isions}", Pos "ydivisions");
   ("nag", Level "picky" 0); ("nonag", Level "picky" 1); ("trace", Level "picky" 1); ("notrace", Level "picky" 2); ("log", Level "picky" 2); ("nolog", Level "picky" 3);
   ("debug", Level "picky" 3); ("nodebug", Level "picky" 4); ("picky", Level "picky" 4); ("nopicky", Level "picky" 5); ("warn{ing}", Level "picky" 5); ("nowarn", Level "picky" 6);
   ("phase", Choice "phase" [("d{egrees}", 0); ("+d{egrees}", 2); ("-d{egrees}", 3); ("r{adians}", 1)]%Z);
   ("order", Choice "order" [("r{everse}", 1); ("f{orward}", 2); ("a{uto}", 3)]%Z);
   ("mode", Choice "mode" [("a{nalog}", 1); ("d{igital}", 2); ("m{ixed}", 3)]%Z);
   ("tr{ansits}", Int "transits"); ("dup{check}", Flag "dupcheck"); ("byp{ass}", Flag "bypass"); ("inc{mode}", Flag "incmode"); ("lcb{ypass}", Flag "lcbypass");
   ("lub{ypass}", Flag "lubypass"); ("fbb{ypass}", Flag "fbbypass"); ("tracel{oad}", Flag "traceload"); ("itermin", Int "itermin"); ("vmax", Real "vmax"); ("vmin", Real "vmin");
   ("mrt", Pos "dtmin"); ("dtmin", Pos "dtmin"); ("dtr{atio}", Pos "dtratio"); ("rstray", Flag "rstray"); ("cstray", Flag "cstray"); ("harmonics", Int "harmonics");
   ("trstepgrow", Pos "trstepgrow"); ("trstephold", Pos "trstephold"); ("trstepshrink", Pos "trstepshrink"); ("trreject", Pos "trreject"); ("trsteporder", Order "trsteporder");
   ("trstepcoef1", Real "trstepcoef1"); ("trstepcoef2", Real "trstepcoef2"); ("trstepcoef3", Real "trstepcoef3"); ("showall", Flag "showall"); ("foooo", Int "foooo");
   ("diode{flags}", Oct "diodeflags"); ("mos{flags}", Oct "mosflags"); ("quitconv{fail}", Flag "quitconvfail"); ("edit", Flag "edit"); ("recur{sion}", Int "recursion");
   ("lang{uage}", Lang); ("insensitive", Flag "case_insensitive"); ("units", Choice "units" [("si", 0); ("spice", 1)]%Z);
   ("itl1", Int "itl1"); ("itl2", Int "itl2"); ("itl3", Int "itl3"); ("itl4", Int "itl4"); ("itl5", Int "itl5"); ("itl6", Int "itl6"); ("itl7", Int "itl7"); ("itl8", Int "itl8")].

(* int(double): towards zero; outside int it is undefined *)
Definition to_int (q : Q) : out Z :=
  let z := Z.quot (Qnum q) (Zpos (Qden q)) in
  if (-2147483648 <=? z)%Z && (z <=? 2147483647)%Z then Done z else Undef.
(* include/l_compar.h:43-46 *)
Definition to_range (lo x hi : Z) : Z := Z.min (Z.max lo x) hi.

Section Opts.
(* the reading of a language: ctos and the dispatcher (include/u_lang.h, lib/u_lang.cc) *)
Context (rd_lang : cs -> option (option (bool * units) * cs)).

(* the Sets after a Choice; the warning at the end has the value of the last match, false
   lib/u_opt2.cc:41-49, 117-134, 173-176; include/ap.h:193-202 *)
Fixpoint choose (v : string) (l : list (string * Z)) (st : opts) (s : cs) : out (bool * opts * cs) :=
  match l with
  | [] => Done (false, st, s)
  | (k, z) :: l =>
      do s <- txt (umatch (ci_of st) (str k ++ [" "%char]) s);
      if ok s then Done (true, put st v (VZ z), s) else choose v l st s
  end.
(* one line of lib/u_opt2.cc:63-184. Get: lib/ap_get.cc:30-78, include/ap.h:172-180. set_verilog_math
   (line 168) and big_change, which has no effect (192-198), are left out. *)
Definition entry (key : string) (a : act) (st : opts) (s : cs) : out (bool * opts * cs) :=
  let ci := ci_of st in
  match a with
  | Flag v =>
      do s <- txt (umatch ci (str key ++ [" "%char]) s);
      if ok s then
        do s <- txt (skip1bc "=" s);
        if ok s then do (b, s) <- txt (ctob ci s); Done (true, put st v (VB b), s) else Done (true, put st v (VB true), s)
      else
        do s <- txt (umatch ci (str "no" ++ str key) s);
        if ok s then Done (true, put st v (VB false), s) else Done (false, st, s)
  | Level v z =>
      do s <- txt (umatch ci (str key ++ [" "%char]) s);
      if ok s then Done (true, put st v (VZ z), s) else Done (false, st, s)
  | _ =>
      do s <- txt (umatch ci (str key ++ str " {=}") s);
      if ok s then
        match a with
        | Int v => do (q, s) <- txt (ctof (u_of st) s); do z <- to_int q; Done (true, put st v (VZ z), s)
        | Oct v => do (z, s) <- txt (ctoo s); Done (true, put st v (VZ z), s)
        | Uint v => do (z, s) <- txt (ctou s); Done (true, put st v (VZ z), s)
        | Real v => do (q, s) <- txt (ctof (u_of st) s); Done (true, put st v (VQ q), s)
        | Pos v => do (q, s) <- txt (ctof (u_of st) s); Done (true, put st v (VQ (Qabs q)), s)
        | Order v => do (q, s) <- txt (ctof (u_of st) s); do z <- to_int q; Done (true, put st v (VZ (to_range 1 z 3)), s)
        | Choice v l => choose v l st s
        | Lang => do (l, s) <- txt (rd_lang s);
            Done (true, put (put (put st "language" (VL l)) "case_insensitive" (VB (match l with Some (c, _) => c | None => false end)))
                         "units" (VZ (match l with Some (_, u) => unit_code u | None => 0 end)), s)
        | _ => Undef
        end
      else Done (false, st, s)
  end.
(* ONE_OF || ... of lib/u_opt2.cc:62-185, the last alternative being line 185 *)
Fixpoint one_of (l : list (string * act)) (st : opts) (s : cs) : out (opts * cs) :=
  match l with
  | [] => do s <- txt (check (ci_of st) s); do s <- txt (skiparg s); Done (st, s)
  | (k, a) :: l => do (b, st, s) <- entry k a st s; if b then Done (st, s) else one_of l st s
  end.
Definition pass := one_of table.
(* lib/u_opt2.cc:200-204 *)
Definition settle (st : opts) : opts :=
  let r := match st "reltol" with VQ q => q | _ => 0%Q end in
  let n := match st "numdgt" with VZ z => z | _ => 0%Z end in
  put (put (put st "lowlim" (VQ (1 - r))) "uplim" (VQ (1 + r))) "numdgt" (VZ (to_range 3 n 20)).
(* lib/u_opt2.cc:60-190; stuck: include/ap.h:73. n bounds the passes *)
Fixpoint loop (n : nat) (here : Z) (changed : bool) (st : opts) (s : cs) : out (bool * opts * cs) :=
  match n with
  | O => NoEnd
  | S n' =>
      do (st, s) <- pass st s;
      let changed := (here <? cnt s)%Z || changed in
      let here := cnt s in
      do (b, s) <- txt (more s);
      if b && changed then loop n' here changed st s else Done (changed, st, s)
  end.
(* OPT::set_values  lib/u_opt2.cc:55-206 *)
Definition set_values (st : opts) (s : cs) : out (bool * opts * cs) :=
  do (c, st, s) <- loop (S (S (List.length (cmd s)))) (cnt s) false st s;
  Done (c, if c then settle st else st, s).
End Opts.

(* the initial values  lib/u_opt1.cc:28-121 *)
Definition defaults : opts := fun v =>
  match find (fun p => String.eqb (fst p) v)
    [("acct", VB false); ("listing", VB false); ("mod", VB true); ("page", VB false); ("node", VB false); ("opts", VB false);
     ("gmin", VQ (1 # 1000000000000)); ("bypasstol", VQ (1 # 10)); ("loadtol", VQ (1 # 10)); ("reltol", VQ (1 # 1000)); ("abstol", VQ (1 # 1000000000000));
     ("vntol", VQ (1 # 1000000)); ("trtol", VQ 7); ("chgtol", VQ (1 # 100000000000000)); ("pivtol", VQ (1 # 10000000000000)); ("pivrel", VQ (1 # 1000));
     ("numdgt", VZ 5); ("tnom_c", VQ 27); ("cptime", VZ 30000); ("limtim", VZ 2); ("limpts", VZ 201); ("lvlcod", VZ 2); ("lvltim", VZ 2); ("method", VZ 3);
     ("maxord", VZ 2); ("defl", VQ (1 # 10000)); ("defw", VQ (1 # 10000)); ("defad", VQ 0); ("defas", VQ 0); ("clobber", VB true); ("dampmax", VQ 1); ("dampmin", VQ (1 # 2));
     ("dampstrategy", VZ 0); ("floor", VQ (1 # 1000000000000000000000)); ("vfloor", VQ (1 # 1000000000000000)); ("roundofftol", VQ (1 # 10000000000000)); ("temp_c", VQ 27);
     ("shortckt", VQ (1 # 100000)); ("picky", VZ 4); ("outwidth", VZ 9999); ("ydivisions", VQ 4); ("phase", VZ 0); ("order", VZ 3); ("mode", VZ 3); ("transits", VZ 2);
     ("dupcheck", VB false); ("bypass", VB true); ("incmode", VB true); ("lcbypass", VB true); ("lubypass", VB true); ("fbbypass", VB true); ("traceload", VB true);
     ("itermin", VZ 1); ("vmax", VQ 5); ("vmin", VQ (-5)); ("dtmin", VQ (1 # 1000000000000)); ("dtratio", VQ 1000000000); ("rstray", VB true); ("cstray", VB true);
     ("harmonics", VZ 9); ("trstepgrow", VQ (inject_Z (10 ^ 99))); ("trstephold", VQ (inject_Z (10 ^ 99))); ("trstepshrink", VQ 2); ("trreject", VQ (1 # 2)); ("trsteporder", VZ 3);
     ("trstepcoef1", VQ (1 # 4)); ("trstepcoef2", VQ (1 # 24)); ("trstepcoef3", VQ (1 # 192)); ("showall", VB false); ("foooo", VZ 0); ("diodeflags", VZ 0); ("mosflags", VZ 0);
     ("quitconvfail", VB false); ("edit", VB true); ("recursion", VZ 20); ("language", VL None); ("case_insensitive", VB false); ("units", VZ 0);
     ("lowlim", VQ (999 # 1000)); ("uplim", VQ (1001 # 1000));
     ("itl1", VZ 100); ("itl2", VZ 50); ("itl3", VZ 6); ("itl4", VZ 20); ("itl5", VZ 0); ("itl6", VZ 5000); ("itl7", VZ 1); ("itl8", VZ 99)]
  with Some p => snd p | None => VZ 0 end.

(* OPT::print, lib/u_opt2.cc:211-319: the words written before an equals sign, with the variable written
   after it; itl, which is written as itl@ and a number (270-272), is printed_itl. Layout and the writing
   of numbers are left out; diodeflags and mosflags are written only when not 0 (310-315). *)
Definition printed : list (string * string) :=
  [
   ("out", "outwidth"); ("ydivisions", "ydivisions"); ("phase", "phase"); ("harmonics", "harmonics"); ("language", "language"); ("units", "units");
   ("recursion", "recursion"); ("numdgt", "numdgt"); ("floor", "floor"); ("vfloor", "vfloor"); ("roundofftol", "roundofftol"); ("gmin", "gmin"); ("short", "shortckt");
   ("reltol", "reltol"); ("abstol", "abstol"); ("vntol", "vntol"); ("trtol", "trtol"); ("chgtol", "chgtol"); ("pivtol", "pivtol"); ("bypasstol", "bypasstol");
   ("loadtol", "loadtol"); ("method", "method"); ("order", "order"); ("mode", "mode"); ("transits", "transits"); ("itermin", "itermin"); ("vmax", "vmax"); ("vmin", "vmin");
   ("dampmax", "dampmax"); ("dampmin", "dampmin"); ("dampstrategy", "dampstrategy"); ("dtmin", "dtmin"); ("dtratio", "dtratio"); ("trstepgrow", "trstepgrow");
   ("trstephold", "trstephold"); ("trstepshrink", "trstepshrink"); ("trreject", "trreject"); ("trsteporder", "trsteporder"); ("trstepcoef1", "trstepcoef1");
   ("trstepcoef2", "trstepcoef2"); ("trstepcoef3", "trstepcoef3"); ("tnom", "tnom_c"); ("temperature", "temp_c"); ("defl", "defl"); ("defw", "defw"); ("defad", "defad");
   ("defas", "defas"); ("diodeflags", "diodeflags"); ("mosflags", "mosflags")].
(* the flags: variable, the word when true, the word when false *)
Definition printed_flags : list (string * string * string) :=
  [
   ("acct", "acct", "noacct"); ("listing", "list", "nolist"); ("clobber", "clobber", "noclobber"); ("edit", "edit", "noedit");
   ("case_insensitive", "insensitive", "noinsensitive"); ("bypass", "bypass", "nobypass"); ("incmode", "incmode", "noincmode"); ("lcbypass", "lcbypass", "nolcbypass");
   ("lubypass", "lubypass", "nolubypass"); ("fbbypass", "fbbypass", "nofbbypass"); ("traceload", "traceload", "notraceload");
   ("quitconvfail", "quitconvfail", "noquitconvfail"); ("rstray", "rstray", "norstray"); ("cstray", "cstray", "nocstray")].
(* lib/u_opt2.cc:270-272 *)
Definition printed_itl (ii : string) : string := ("itl@" ++ ii ++ "=")%string.
(* operator<< of the enumerations  include/u_opt.h:44-67, include/mode.h:30-35: variable, number, word;
   the words of numbers that set_values never gives are left out *)
Definition printed_choices : list (string * Z * string) :=
  [("method", 1, "euler"); ("method", 2, "euleronly"); ("method", 3, "trap"); ("method", 4, "traponly"); ("method", 5, "gear2"); ("method", 6, "gear2only");
   ("method", 7, "trapgear"); ("method", 8, "trapeuler"); ("order", 1, "reverse"); ("order", 2, "forward"); ("order", 3, "auto"); ("phase", 0, "degrees"); ("phase", 1, "radians");
   ("phase", 2, "+degrees"); ("phase", 3, "-degrees"); ("units", 0, "si"); ("units", 1, "spice"); ("mode", 1, "analog"); ("mode", 2, "digital"); ("mode", 3, "mixed")]%Z.
