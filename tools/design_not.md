Not modelled:

* Colours, scales, legends and layout of figures (of `utils/plotter.py` the data are modelled), `utils/ascii_art.py`, the formatting of log messages, the network part of
  `utils/version_control.py`.
* Reading files: astropy's `ascii.read`/`QTable.read`, `xlrd`, `h5py` itself, FITS. What is read is an argument.
* Custom noise given as a "data" table (noise.py:175-192); `load_pixel_psf_size` and the reading of PSF files.
* Rounding of floating point numbers and overflow; dtypes; signed zero; unit bookkeeping (values are in the unit the code
  converts to; a few checks that units are present are modelled where they decide the outcome).
* `scipy`, `numpy`, `photutils`, `mpmath`: by their mathematical definition (interp1d, trapz, argmin, ellippi, ...), or as
  arguments over which theorems quantify (PSF images, kernels, sky-coordinate transformations).
* Messages of exceptions (only the class is kept), warnings; which messages are logged (M_Log: where they go).
