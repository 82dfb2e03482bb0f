(** VerificationData.v -- the contents of the packaged file src/legwork/verification_binaries.npy (read by source.py
    L1626-1627), transcribed: 16 binaries of Kupfer et al. (2018); frequencies in mHz, masses in solar masses, distances in
    pc, angles in degrees, here turned into SI values.  The decimals stand for the doubles nearest to them. *)
From Coq Require Import String Reals List.
From Verif Require Import Num Evol Units Verification.
Import ListNotations.
Open Scope R_scope.

Definition degree : R := PI / 180.
Definition parsec : R := 648000 / PI * AU.
Definition in_size (k : R) (l : list R) : list num := map (fun v => Fin (v * k)) l.
Definition published_m_1 : list R := [0.55; 0.8; 0.8; 0.8; 0.68; 0.8; 0.49; 0.8; 0.8; 0.67; 0.78; 0.247; 0.312; 0.298; 0.275; 0.54].
Definition published_m_2 : list R := [0.27; 0.177; 0.161; 0.1; 0.125; 0.085; 0.048; 0.066; 0.064; 0.044; 0.059; 0.49; 0.75; 0.76; 0.76; 0.79].
Definition published_f_GW : list R := [6.22; 3.51; 3.22; 2.12; 1.94; 1.84; 1.81; 1.48; 1.45; 1.36; 1.25; 2.61; 1.68; 0.84; 0.51; 0.47].
Definition published_dist : list R := [5000; 1786; 1584; 1317; 299; 1044; 276; 1338; 971; 337; 347; 933; 645; 1019; 299; 337].
Definition published : vtable := mkVtable
  ["HM Cnc"; "V407 Vul"; "ES Cet"; "SDSS J135154.46–064309.0"; "AM CVn"; "SDSS J190817.07+394036.4"; "HP Lib"; "PTF1 J191905.19+481506.2";
   "CXOGBS J175107.6–294037"; "CR Boo"; "V803 Cen"; "SDSS J065133.34+284423.4"; "SDSS J093506.92+441107.0"; "SDSS J163030.58+423305.7";
   "SDSS J092345.59+302805.0"; "CD–30 11223"]%string
  (in_size (1/1000) published_f_GW)
  (in_size 1 [211.1; 169.7; 154.3; 21.8; 101.2; 20.3; 43.7; 4.0; 4.5; 21.9; 26.2; 90.1; 44.9; 4.6; 5.6; 4.9])
  (in_size degree [206.9246; 57.7281; 168.9684; 328.5021; 140.2343; 70.6664; 325.0561; 79.5945; 359.9849; 340.9671; 309.3671; 186.9277; 176.0796; 67.076; 195.8199; 322.4875])
  (in_size degree [23.3952; 6.4006; -65.8632; 53.124; 78.9382; 13.9349; 32.5467; 15.5977; -1.4108; 66.4884; 20.7262; 12.6886; 47.3376; 43.3604; 44.7754; 28.9379])
  (in_size (u_size msun) published_m_1)
  (in_size (u_size msun) published_m_2)
  (in_size degree [38; 60; 60; 60; 43; 10; 26; 60; 60; 30; 12; 86.9; 60; 60; 60; 82.9])
  (in_size parsec published_dist).
