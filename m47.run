python3: can't open file '/verif/mutate3.py': [Errno 2] No such file or directory
