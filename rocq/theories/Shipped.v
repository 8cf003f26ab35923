(** * The parameter files of the repository, /repo/settings

    The text of each file, character by character.  *)
From Coq Require Import Ascii String ZArith List Bool.
Import ListNotations.
From Verif Require Import Config.
Local Open Scope string_scope.

(** settings/mhd_fieldloop2d.ini *)
Definition ini_mhd_fieldloop2d : text := lit "#
# MHD 2D test parameter file; field loop simulation
#
# T. Gardiner & J.M. Stone, ""An unsplit Godunov method for ideal MHD
# via constrined transport"", JCP, 205, 509 (2005)
# http://www.astro.princeton.edu/~jstone/Athena/tests/field-loop/Field-loop.html
#

[run]
solver_name=MHD_Muscl_2D
tend=0.5
nOutput=-1
nStepmax=10

[mesh]
nx=256
ny=148
nz=1

# BoundaryConditionType :
# BC_UNDEFINED=0
# BC_DIRICHLET=1
# BC_NEUMANN=2
# BC_PERIODIC=3
boundary_xmin=2
boundary_xmax=2
boundary_ymin=2
boundary_ymax=2
boundary_zmin=2
boundary_zmax=2
xmin=-1.0
xmax=1.0
ymin=-0.5
ymax=0.5

[hydro]
problem=FieldLoop
cfl=0.4
niter_riemann=10
iorder=2
slope_type=2.0
riemann=hlld
gamma0=1.4
smallr=1e-8
smallc=1e-8

[FieldLoop]
radius=0.3
amplitude=0.001
vflow=3
direction=0


[output]
outputDir=./
outputPrefix=mhd_fieldloop_2d
vtk_enabled=yes
hdf5_enabled=no
ghostIncluded=no
".

(** settings/mhd_fieldloop3d.ini *)
Definition ini_mhd_fieldloop3d : text := lit "#
# MHD 3D test parameter file; field loop simulation
#
# T. Gardiner & J.M. Stone, ""An unsplit Godunov method for ideal MHD
# via constrined transport"", JCP, 205, 509 (2005)
# http://www.astro.princeton.edu/~jstone/Athena/tests/field-loop/Field-loop.html
#

[run]
solver_name=MHD_Muscl_3D
tend=0.5
nOutput=10
nStepmax=200

[mesh]
nx=64
ny=32
nz=32
# BoundaryConditionType :
# BC_UNDEFINED=0
# BC_DIRICHLET=1
# BC_NEUMANN=2
# BC_PERIODIC=3
boundary_xmin=3
boundary_xmax=3
boundary_ymin=3
boundary_ymax=3
boundary_zmin=3
boundary_zmax=3
xmin=-1.0
xmax=1.0
ymin=-0.5
ymax=0.5
zmin=-0.5
zmax=0.5

[hydro]
problem=FieldLoop
cfl=0.4
niter_riemann=10
iorder=2
slope_type=2.0
riemann=hlld
gamma0=1.666
smallr=1e-8
smallc=1e-8

[FieldLoop]
radius=0.3
amplitude=0.001
vflow=3
direction=0


[output]
outputDir=./
outputPrefix=mhd_fieldloop_3d
vtk_enabled=yes
hdf5_enabled=no
ghostIncluded=no
".

(** settings/test_blast_2D.ini *)
Definition ini_test_blast_2D : text := lit "[run]
solver_name=Hydro_Muscl_2D
tEnd=1.0
nStepmax=1000
nOutput=10
# if this is a restart run, just
# 1. turn on the flag restart_enabled
# 2. provide hdf5 filename (output from a previous run)
# 3. recheck tEnd, nStepmax and nOutput
#    nOutput should probably be increased by the same factor as tEnd
#    to make sure the restart run will output files with the same
#    spacing between two outputs
restart_enabled=0
restart_filename=test_blast_2D_0000010.h5

[mesh]
nx=128
ny=192

xmin=0.0
xmax=1.0

ymin=0.0
ymax=1.5

boundary_type_xmin=1
boundary_type_xmax=1

boundary_type_ymin=1
boundary_type_ymax=1

[hydro]
gamma0=1.666
cfl=0.8
niter_riemann=10
iorder=2
slope_type=2
problem=blast
riemann=hllc

[blast]
density_in=1.0
density_out=1.2

[output]
outputDir=./
outputPrefix=test_blast_2D
outputVtkAscii=false

[other]
implementationVersion=0
".

(** settings/test_blast_3D.ini *)
Definition ini_test_blast_3D : text := lit "[run]
solver_name=Hydro_Muscl_3D
tEnd=50.0
nStepmax=500
nOutput=50

[mesh]
nx=64
ny=48
nz=32
xmax=2.0
ymax=1.5
zmax=1.0
boundary_type_xmin=1
boundary_type_xmax=1
boundary_type_ymin=1
boundary_type_ymax=1
boundary_type_zmin=1
boundary_type_zmax=1

[hydro]
gamma0=1.666
cfl=0.8
niter_riemann=10
iorder=2
slope_type=2
problem=blast
riemann=hllc

[blast]
density_in=1.0
density_out=1.2

[output]
outputDir=./
outputPrefix=test_blast_3D
outputVtkAscii=false

[other]
implementationVersion=0
".

(** settings/test_four_quadrant_2D.ini *)
Definition ini_test_four_quadrant_2D : text := lit "[run]
solver_name=Hydro_Muscl_2D
tEnd=0.5
nStepmax=500
nOutput=10

[mesh]
nx=512
ny=512

xmin=0.0
xmax=1.0

ymin=0.0
ymax=1.0

boundary_type_xmin=2
boundary_type_xmax=2

boundary_type_ymin=2
boundary_type_ymax=2

[hydro]
gamma0=1.666
cfl=0.8
niter_riemann=10
iorder=2
slope_type=2
problem=four_quadrant
riemann=hllc

[riemann2d]
config_number=2
x=0.8
y=0.8

[output]
outputDir=./
outputPrefix=test_four_quadrant_2D
outputVtkAscii=false
hdf5_enabled=yes

[other]
implementationVersion=0
".

(** settings/test_four_quadrant_3D.ini *)
Definition ini_test_four_quadrant_3D : text := lit "[run]
solver_name=Hydro_Muscl_3D
tEnd=0.5
nStepmax=500
nOutput=10

[mesh]
nx=48
ny=48
nz=48

xmin=0.0
xmax=1.0

ymin=0.0
ymax=1.0

zmin=0.0
zmax=1.0

boundary_type_xmin=2
boundary_type_xmax=2

boundary_type_ymin=2
boundary_type_ymax=2

boundary_type_zmin=2
boundary_type_zmax=2

[hydro]
gamma0=1.666
cfl=0.8
niter_riemann=10
iorder=2
slope_type=2
problem=four_quadrant
riemann=hllc

[riemann2d]
config_number=2
x=0.8
y=0.8
z=0.8

[output]
outputDir=./
outputPrefix=test_four_quadrant_3D
outputVtkAscii=false
hdf5_enabled=yes

[other]
implementationVersion=0
".

(** settings/test_implode_2D.ini *)
Definition ini_test_implode_2D : text := lit "[run]
solver_name=Hydro_Muscl_2D
tEnd=0.025
nStepmax=100
nOutput=10

[mesh]
nx=1024
ny=512

xmin=0.0
xmax=2.0

ymin=0.0
ymax=1.0

boundary_type_xmin=1
boundary_type_xmax=1
boundary_type_ymin=1
boundary_type_ymax=1

[hydro]
gamma0=1.666
cfl=0.8
niter_riemann=10
iorder=2
slope_type=2
problem=implode
riemann=hllc
#riemann=approx

[output]
outputDir=./
outputPrefix=test_implode_2D
outputVtkAscii=false
vtk_enabled=yes
hdf5_enabled=no

[other]
implementationVersion=0
".

(** settings/test_implode_2D_mpi.ini *)
Definition ini_test_implode_2D_mpi : text := lit "[run]
solver_name=Hydro_Muscl_2D
tEnd=1.0
nStepmax=3000
nOutput=10

[mpi]
mx=2
my=2

[mesh]
nx=128
ny=128

xmin=0.0
xmax=1.0

ymin=0.0
ymax=1.0

boundary_type_xmin=1
boundary_type_xmax=1
boundary_type_ymin=1
boundary_type_ymax=1

[hydro]
gamma0=1.666
cfl=0.8
niter_riemann=10
iorder=2
slope_type=2
problem=implode
riemann=hllc
#riemann=approx

[output]
outputDir=./
outputPrefix=test_implode_2D
outputVtkAscii=false
vtk_enabled=yes
hdf5_enabled=no

[other]
implementationVersion=0
".

(** settings/test_implode_3D.ini *)
Definition ini_test_implode_3D : text := lit "[run]
solver_name=Hydro_Muscl_3D
tEnd=0.15
nStepmax=100
nOutput=10

[mesh]
nx=64
ny=48
nz=32
boundary_type_xmin=1
boundary_type_xmax=1
boundary_type_ymin=1
boundary_type_ymax=1
boundary_type_zmin=1
boundary_type_zmax=1

[hydro]
gamma0=1.666
cfl=0.8
niter_riemann=10
iorder=2
slope_type=2
problem=implode
riemann=hllc
#riemann=approx

[output]
outputDir=./
outputPrefix=test_implode_3D
outputVtkAscii=false

[other]
implementationVersion=0
".

(** settings/test_implode_3D_mpi.ini *)
Definition ini_test_implode_3D_mpi : text := lit "[run]
solver_name=Hydro_Muscl_3D
tEnd=0.15
nStepmax=100
nOutput=10

[mpi]
mx=2
my=4
mz=2


[mesh]
nx=32
ny=16
nz=32
boundary_type_xmin=1
boundary_type_xmax=1
boundary_type_ymin=1
boundary_type_ymax=1
boundary_type_zmin=1
boundary_type_zmax=1

xmin=-0.5
xmax=0.5

ymin=0.0
ymax=2.0

zmin=-0.2
zmax=0.8

[hydro]
gamma0=1.666
cfl=0.8
niter_riemann=10
iorder=2
slope_type=2
problem=implode
riemann=hllc
#riemann=approx

[output]
outputDir=./
outputPrefix=test_implode_3D
outputVtkAscii=false

[other]
implementationVersion=0
".

(** settings/test_mhd_blast_2D.ini *)
Definition ini_test_mhd_blast_2D : text := lit "[run]
solver_name=MHD_Muscl_2D
tEnd=1.0
nStepmax=1000
nOutput=10

[mesh]
nx=128
ny=192

xmin=0.0
xmax=1.0

ymin=0.0
ymax=1.5

boundary_type_xmin=3
boundary_type_xmax=3

boundary_type_ymin=3
boundary_type_ymax=3

[hydro]
gamma0=1.666
cfl=0.8
niter_riemann=10
iorder=2
slope_type=2
problem=blast
riemann=hlld

[blast]
density_in=1.0
density_out=1.2

[output]
outputDir=./
outputPrefix=test_blast_mhd_2D
outputVtkAscii=false
hdf5_enabled=yes

[other]
implementationVersion=0
".

(** settings/test_mhd_blast_3D.ini *)
Definition ini_test_mhd_blast_3D : text := lit "[run]
solver_name=MHD_Muscl_3D
tEnd=0.2
nStepmax=1000
nOutput=10

[mesh]
nx=48
ny=48
nz=48

xmin=0.0
xmax=1.0

ymin=0.0
ymax=1.0

zmin=0.0
zmax=1.0

boundary_type_xmin=3
boundary_type_xmax=3

boundary_type_ymin=3
boundary_type_ymax=3

boundary_type_zmin=3
boundary_type_zmax=3

[hydro]
gamma0=1.666
cfl=0.8
niter_riemann=10
iorder=2
slope_type=2
problem=blast
riemann=hlld

[blast]
density_in=1.0
density_out=1.2

[output]
outputDir=./
outputPrefix=test_blast_mhd_3D_impl1
outputVtkAscii=false

[other]
implementationVersion=1
".

(** settings/test_mhd_brio_wu_2d_x.ini *)
Definition ini_test_mhd_brio_wu_2d_x : text := lit "[run]
solver_name=MHD_Muscl_2D
tEnd=0.1
nStepmax=1000
nOutput=10

[mesh]
nx=512
ny=32

xmin=0.0
xmax=1.0

ymin=0.0
ymax=0.0625

boundary_type_xmin=2
boundary_type_xmax=2

boundary_type_ymin=2
boundary_type_ymax=2

[hydro]
gamma0=2.0
cfl=0.8
niter_riemann=10
iorder=2
slope_type=2
problem=brio-wu
riemann=hlld

[brio-wu]
direction=0

[output]
outputDir=./
outputPrefix=test_mhd_brio_wu_2d_x
outputVtkAscii=false
hdf5_enabled=yes

[other]
implementationVersion=2
".

(** settings/test_mhd_brio_wu_2d_y.ini *)
Definition ini_test_mhd_brio_wu_2d_y : text := lit "[run]
solver_name=MHD_Muscl_2D
tEnd=0.1
nStepmax=1000
nOutput=10

[mesh]
nx=32
ny=512

xmin=0.0
xmax=0.0625

ymin=0.0
ymax=1.0

boundary_type_xmin=2
boundary_type_xmax=2

boundary_type_ymin=2
boundary_type_ymax=2

[hydro]
gamma0=2.0
cfl=0.8
niter_riemann=10
iorder=2
slope_type=2
problem=brio-wu
riemann=hlld

[brio-wu]
direction=1

[output]
outputDir=./
outputPrefix=test_mhd_brio_wu_2d_y
outputVtkAscii=false
hdf5_enabled=yes

[other]
implementationVersion=2
".

(** settings/test_mhd_brio_wu_3d_x.ini *)
Definition ini_test_mhd_brio_wu_3d_x : text := lit "[run]
solver_name=MHD_Muscl_3D
tEnd=0.1
nStepmax=1000
nOutput=10

[mesh]
nx=512
ny=16
nz=16

xmin=0.0
xmax=1.0

ymin=0.0
ymax=0.0625

zmin=0.0
zmax=0.0625

boundary_type_xmin=2
boundary_type_xmax=2

boundary_type_ymin=2
boundary_type_ymax=2

boundary_type_zmin=2
boundary_type_zmax=2

[hydro]
gamma0=2.0
cfl=0.8
niter_riemann=10
iorder=2
slope_type=2
problem=brio-wu
riemann=hlld

[brio-wu]
direction=0

[output]
outputDir=./
outputPrefix=test_mhd_brio_wu_3d_x
outputVtkAscii=false
hdf5_enabled=yes

[other]
implementationVersion=2
".

(** settings/test_mhd_brio_wu_3d_y.ini *)
Definition ini_test_mhd_brio_wu_3d_y : text := lit "[run]
solver_name=MHD_Muscl_3D
tEnd=0.1
nStepmax=1000
nOutput=10

[mesh]
nx=16
ny=512
nz=16

xmin=0.0
xmax=0.0625

ymin=0.0
ymax=1.0

zmin=0.0
zmax=0.0625

boundary_type_xmin=2
boundary_type_xmax=2

boundary_type_ymin=2
boundary_type_ymax=2

boundary_type_zmin=2
boundary_type_zmax=2

[hydro]
gamma0=2.0
cfl=0.8
niter_riemann=10
iorder=2
slope_type=2
problem=brio-wu
riemann=hlld

[brio-wu]
direction=1

[output]
outputDir=./
outputPrefix=test_mhd_brio_wu_3d_y
outputVtkAscii=false
hdf5_enabled=yes

[other]
implementationVersion=2
".

(** settings/test_mhd_brio_wu_3d_z.ini *)
Definition ini_test_mhd_brio_wu_3d_z : text := lit "[run]
solver_name=MHD_Muscl_3D
tEnd=0.1
nStepmax=1000
nOutput=10

[mesh]
nx=16
ny=16
nz=512

xmin=0.0
xmax=0.0625

ymin=0.0
ymax=0.0625

zmin=0.0
zmax=1.0

boundary_type_xmin=2
boundary_type_xmax=2

boundary_type_ymin=2
boundary_type_ymax=2

boundary_type_zmin=2
boundary_type_zmax=2

[hydro]
gamma0=2.0
cfl=0.8
niter_riemann=10
iorder=2
slope_type=2
problem=brio-wu
riemann=hlld

[brio-wu]
direction=2

[output]
outputDir=./
outputPrefix=test_mhd_brio_wu_3d_z
outputVtkAscii=false
hdf5_enabled=yes

[other]
implementationVersion=2
".

(** settings/test_mhd_orszag_tang_2D.ini *)
Definition ini_test_mhd_orszag_tang_2D : text := lit "[run]
solver_name=MHD_Muscl_2D
tEnd=1.0
nStepmax=100
nOutput=-1

[mesh]
nx=256
ny=256
boundary_type_xmin=3
boundary_type_xmax=3
boundary_type_ymin=3
boundary_type_ymax=3

[hydro]
gamma0=1.666
cfl=0.8
niter_riemann=10
iorder=2
slope_type=2
problem=orszag_tang
riemann=hlld
smallr=1e-7
smallc=1e-7

[output]
outputPrefix=orszag_tang_2d
outputVtkAscii=false

[other]
implementationVersion=0
".

(** settings/test_mhd_orszag_tang_3D.ini *)
Definition ini_test_mhd_orszag_tang_3D : text := lit "[run]
solver_name=MHD_Muscl_3D
tend=10.0
nstepmax=500
noutput=50

[mesh]
nx=64
ny=64
nz=16
xmax=1.0
ymax=1.0
zmax=0.25
boundary_type_xmin=3
boundary_type_xmax=3
boundary_type_ymin=3
boundary_type_ymax=3
boundary_type_zmin=3
boundary_type_zmax=3

[hydro]
gamma0=1.666
cfl=0.8
niter_riemann=10
iorder=2
slope_type=2
problem=orszag_tang
riemann=hlld
smallr=1e-8
smallc=1e-8

[OrszagTang]
vortex_dir=2

[output]
outputPrefix=orszag_tang_3d
outputVtkAscii=false
hdf5_enabled=yes

[other]
implementationVersion=0
".

(** settings/test_mhd_rotor.ini *)
Definition ini_test_mhd_rotor : text := lit "#
# MHD 2D test parameter file; Rotor simulation
#
# G. Toth, ""The div(B)=0 constraint in shock-capturing MHD codes"",
# JCP, 161, 605 (2000)
#

[run]
solver_name=MHD_Muscl_2D
tend=0.15
nStepmax=10000
nOutput=50

[mesh]
nx=128
ny=128
nz=1

# BoundaryConditionType :
# BC_UNDEFINED=0
# BC_DIRICHLET=1
# BC_NEUMANN=2
# BC_PERIODIC=3
boundary_type_xmin=2
boundary_type_xmax=2
boundary_type_ymin=2
boundary_type_ymax=2
boundary_type_zmin=2
boundary_type_zmax=2

[hydro]
problem=rotor
cfl=0.4
niter_riemann=10
iorder=2
slope_type=2.0
riemann=hlld
gamma0=1.4
smallr=1e-8
smallc=1e-8

[rotor]
r0=0.1
r1=0.115
u0=1.0
p0=1.5
#b0=0.1

[output]
outputDir=./
outputPrefix=mhd_rotor
outputVtkAscii=false

[other]
implementationVersion=0
".

(** settings/test_muscl_gresho_vortex_2D.ini *)
Definition ini_test_muscl_gresho_vortex_2D : text := lit "[run]
solver_name=Hydro_Muscl_2D
tEnd=1.0
nStepmax=3000
nOutput=20

[mesh]
nx=256
ny=256

xmin=-1.0
xmax=1.0

ymin=-1.0
ymax=1.0

boundary_type_xmin=3
boundary_type_xmax=3

boundary_type_ymin=3
boundary_type_ymax=3

[hydro]
gamma0=1.666
cfl=0.8
slope_type=2
problem=gresho_vortex
riemann=hllc

[Gresho]
# density
rho0 = 1.0
# Mach number
Ma = 0.1

[output]
outputPrefix=gresho_2d_muscl

[other]
implementationVersion=1
".

(** settings/test_muscl_isentropic_vortex_2d.ini *)
Definition ini_test_muscl_isentropic_vortex_2d : text := lit "[run]
solver_name=Hydro_Muscl_2D
tEnd=10
nStepmax=3000
nOutput=20

[mesh]
nx=128
ny=128

xmin=-5.0
xmax=5.0

ymin=-5.0
ymax=5.0

boundary_type_xmin=3
boundary_type_xmax=3

boundary_type_ymin=3
boundary_type_ymax=3

[hydro]
gamma0=1.666
cfl=0.8
niter_riemann=10
iorder=2
slope_type=2
problem=isentropic_vortex
riemann=hllc

[isentropic_vortex]
density_ambient=1.0
temperature_ambient=1.0
vx_ambient=1.0
vy_ambient=1.0
vz_ambient=1.0


[output]
outputPrefix=test_muscl_isentropic_vortex_2d
outputVtkAscii=false

[other]
implementationVersion=0
".

(** settings/test_muscl_kelvin_helmholtz_2D.ini *)
Definition ini_test_muscl_kelvin_helmholtz_2D : text := lit "[run]
solver_name=Hydro_Muscl_2D
tEnd=1.5
nStepmax=1500
nOutput=10

[mesh]
nx=128
ny=128

xmin=0.0
xmax=1.0

ymin=0.0
ymax=1.0

boundary_type_xmin=3
boundary_type_xmax=3

boundary_type_ymin=3
boundary_type_ymax=3

[hydro]
gamma0=1.666
cfl=0.8
niter_riemann=10
iorder=2
slope_type=2
problem=kelvin_helmholtz
riemann=hllc

[kh]
#
# see http://www.astro.princeton.edu/~jstone/Athena/tests/kh/kh.html
#

# amplitude of interface initial perturbation
amplitude = 0.01

# perturbation type (0 to deactivate, 1 to activate)
perturbation_sine = 0
perturbation_sine_robertson = 1
perturbation_rand = 0

# single mode perturbation a la Robertson
mode = 2
w0 = 0.1
delta = 0.02

# random seed (only used when perturbation_type is random)
# each MPI process get initialized with srand(seed*(mpiRank+1))
rand_seed = 131

# density of the fluids
d_in = 2.0
d_out = 1.0

# half thickness of the two domain.
# inner_size must be smaller than outer_size.
inner_size = 0.25
outer_size = 0.25

# pressure
pressure = 2.5

[output]
outputPrefix=kh2d_muscl

[other]
implementationVersion=1
".

(** settings/test_muscl_kelvin_helmholtz_2D_mhd.ini *)
Definition ini_test_muscl_kelvin_helmholtz_2D_mhd : text := lit "[run]
solver_name=MHD_Muscl_2D
tEnd=5.0
nStepmax=1500
nOutput=10

[mesh]
nx=128
ny=128

xmin=0.0
xmax=1.0

ymin=0.0
ymax=1.0

boundary_type_xmin=3
boundary_type_xmax=3

boundary_type_ymin=3
boundary_type_ymax=3

[hydro]
gamma0=1.666
cfl=0.8
niter_riemann=10
iorder=2
slope_type=2
problem=kelvin_helmholtz
riemann=hlld

[kh]
#
# see http://www.astro.princeton.edu/~jstone/Athena/tests/kh/kh.html
#

# amplitude of interface initial perturbation
amplitude = 0.01

# perturbation type (0 to deactivate, 1 to activate)
perturbation_sine = 0
perturbation_sine_robertson = 1
perturbation_rand = 0

# single mode perturbation a la Robertson
mode = 2
w0 = 0.1
delta = 0.02

# random seed (only used when perturbation_type is random)
# each MPI process get initialized with srand(seed*(mpiRank+1))
rand_seed = 131

# density of the fluids
d_in = 2.0
d_out = 1.0

# half thickness of the two domain.
# inner_size must be smaller than outer_size.
inner_size = 0.25
outer_size = 0.25

# pressure
pressure = 2.5

[output]
outputPrefix=kh2d_muscl

[other]
implementationVersion=0
".

(** settings/test_muscl_kelvin_helmholtz_3D.ini *)
Definition ini_test_muscl_kelvin_helmholtz_3D : text := lit "[run]
solver_name=Hydro_Muscl_3D
tEnd=5.0
nStepmax=2000
nOutput=10

[mesh]
nx=64
ny=64
nz=64

xmin=0.0
xmax=1.0

ymin=0.0
ymax=1.0

zmin=0.0
zmax=1.0

boundary_type_xmin=3
boundary_type_xmax=3

boundary_type_ymin=3
boundary_type_ymax=3

boundary_type_zmin=3
boundary_type_zmax=3

[hydro]
gamma0=1.666
cfl=0.8
slope_type=2
problem=kelvin_helmholtz
riemann=hllc

[kh]
#
# see http://www.astro.princeton.edu/~jstone/Athena/tests/kh/kh.html
#

# amplitude of interface initial perturbation
amplitude = 0.01

# perturbation type (0 to deactivate, 1 to activate)
perturbation_sine = 0
perturbation_sine_robertson = 1
perturbation_rand = 0

# single mode perturbation a la Robertson
mode = 2
w0 = 0.1
delta = 0.02

# random seed (only used when perturbation_type is random)
# each MPI process get initialized with srand(seed*(mpiRank+1))
rand_seed = 131

# density of the fluids
d_in = 2.0
d_out = 1.0

# half thickness of the two domain.
# inner_size must be smaller than outer_size.
inner_size = 0.25
outer_size = 0.25

# pressure
pressure = 2.5

[output]
outputPrefix=kh3d_muscl

[other]
implementationVersion=1
".

(** settings/test_rayleigh_taylor_2d.ini *)
Definition ini_test_rayleigh_taylor_2d : text := lit "[run]
solver_name=Hydro_Muscl_2D
tEnd=20.0
nStepmax=10000
nOutput=50

[mesh]
nx=100
ny=300

xmin=-0.5
xmax=0.5

ymin=-1.5
ymax=1.5

boundary_type_xmin=3
boundary_type_xmax=3
boundary_type_ymin=1
boundary_type_ymax=1

[hydro]
gamma0=1.4
cfl=0.7
niter_riemann=10
iorder=2
slope_type=2
problem=rayleigh_taylor
#riemann=hllc
riemann=approx

[gravity]
enabled=yes
static=yes

[rayleigh_taylor]
amplitude=0.01
d0=1.0
d1=2.0
gx=0.0
gy=-0.1

[output]
outputDir=./
outputPrefix=test_rayleigh_taylor_2D
outputVtkAscii=false

[other]
implementationVersion=0
".

(** settings/test_rayleigh_taylor_3d.ini *)
Definition ini_test_rayleigh_taylor_3d : text := lit "[run]
solver_name=Hydro_Muscl_3D
tEnd=20.0
nStepmax=10000
nOutput=50

[mesh]
nx=50
ny=50
nz=150

xmin=-0.5
xmax=0.5

ymin=-0.5
ymax=0.5

zmin=-1.5
zmax=1.5

boundary_type_xmin=3
boundary_type_xmax=3
boundary_type_ymin=3
boundary_type_ymax=3
boundary_type_zmin=1
boundary_type_zmax=1

[hydro]
gamma0=1.4
cfl=0.7
niter_riemann=10
iorder=2
slope_type=2
problem=rayleigh_taylor
#riemann=hllc
riemann=approx

[gravity]
enabled=yes
static=yes

[rayleigh_taylor]
amplitude=0.01
d0=1.0
d1=2.0
gx=0.0
gy=0.0
gz=-0.1

[output]
outputDir=./
outputPrefix=test_rayleigh_taylor_3D
outputVtkAscii=false

[other]
implementationVersion=1
".

Definition shipped : list text :=
  [ ini_mhd_fieldloop2d;
    ini_mhd_fieldloop3d;
    ini_test_blast_2D;
    ini_test_blast_3D;
    ini_test_four_quadrant_2D;
    ini_test_four_quadrant_3D;
    ini_test_implode_2D;
    ini_test_implode_2D_mpi;
    ini_test_implode_3D;
    ini_test_implode_3D_mpi;
    ini_test_mhd_blast_2D;
    ini_test_mhd_blast_3D;
    ini_test_mhd_brio_wu_2d_x;
    ini_test_mhd_brio_wu_2d_y;
    ini_test_mhd_brio_wu_3d_x;
    ini_test_mhd_brio_wu_3d_y;
    ini_test_mhd_brio_wu_3d_z;
    ini_test_mhd_orszag_tang_2D;
    ini_test_mhd_orszag_tang_3D;
    ini_test_mhd_rotor;
    ini_test_muscl_gresho_vortex_2D;
    ini_test_muscl_isentropic_vortex_2d;
    ini_test_muscl_kelvin_helmholtz_2D;
    ini_test_muscl_kelvin_helmholtz_2D_mhd;
    ini_test_muscl_kelvin_helmholtz_3D;
    ini_test_rayleigh_taylor_2d;
    ini_test_rayleigh_taylor_3d ].
