<minimc>
<general>
  <particles>neutron</particles>
  <histories>4</histories>
  <threads>1</threads>
  <chunksize>1</chunksize>
</general>
<nuclides>
  <multigroup groups="1">
    <nuclide name="absorber">
      <neutron>
        <capture>1</capture>
      </neutron>
    </nuclide>
  </multigroup>
</nuclides>
<materials>
  <material name="black" aden="100">
    <nuclide name="absorber" afrac="1"/>
  </material>
  <material name="thin" aden="0.000001">
    <nuclide name="absorber" afrac="1"/>
  </material>
</materials>
<surfaces>
  <sphere name="inner">
    <center x="0" y="0" z="0"/>
    <radius r="1"/>
  </sphere>
  <sphere name="outer">
    <center x="0" y="0" z="0"/>
    <radius r="5"/>
  </sphere>
</surfaces>
<cells>
  <cell name="core" material="black">
    <surface name="inner" sense="-1"/>
  </cell>
  <cell name="shell" material="thin">
    <surface name="inner" sense="+1"/>
    <surface name="outer" sense="-1"/>
  </cell>
  <void>
    <surface name="outer" sense="+1"/>
  </void>
</cells>
<problemtype>
  <fixedsource>
    <position>
      <constant x="1.25" y="0" z="0"/>
    </position>
    <direction>
      <constant x="-1" y="0" z="0"/>
    </direction>
    <energy>
      <constant energy="1"/>
    </energy>
    <particletype>
      <constant type="neutron"/>
    </particletype>
  </fixedsource>
</problemtype>
<estimators>
  <current name="into the core" surface="inner"/>
  <current name="leakage" surface="outer"/>
</estimators>
</minimc>
