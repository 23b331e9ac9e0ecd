(** src/pynlo/util/pynlo_ffts.py *)
From Coq Require Import Reals List.
From Coquelicot Require Import Complex.
From Verif Require Import CNum NumPy.

(** pynlo_ffts.py:26-27  FFT_t(A) = ifftshift(ifft(fftshift(A))). *)
Definition FFT_t (A : list C) : list C := ifftshift (ifft (fftshift A)).

(** pynlo_ffts.py:28-29  IFFT_t(A) = ifftshift(fft(fftshift(A))). *)
Definition IFFT_t (A : list C) : list C := ifftshift (fft (fftshift A)).
